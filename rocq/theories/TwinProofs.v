(* Proofs about TwinModel: when paths are reused with care, the named tree is
   the tree of FlowModel. *)
From Coq Require Import List Bool Arith Lia.
From Verif Require Import TreeModel TreeProofs TreeRegime TreeTerm FlowModel FlowProofs FlowSim FlowTerm TwinModel TwinSpec.
Import ListNotations.

Lemma same_path_spec p : forall q, same_path p q = true <-> p = q.
Proof.
  induction p as [|x p IH]; intros [|y q]; simpl; try (split; [discriminate|discriminate]); [tauto|].
  rewrite andb_true_iff, Nat.eqb_eq, IH. split; [intros [-> ->]; reflexivity|]. intros E. injection E as -> ->. auto.
Qed.
Lemma same_path_refl p : same_path p p = true.
Proof. now apply same_path_spec. Qed.

(* ---- what one handler changes ---- *)
Lemma fh_kids r a m ok b : sane_sys (size r) a m ->
  let r' := fst (fhandle_sys r a m ok) in
  kids (nd r' b) = kids (nd r b) \/
  (b = a /\ kids (nd r' a) = [] /\ stopped (nd r' a) = true) \/
  (b = a /\ exists c, m = SAttach c /\ att (nd r c) = false /\ gone (nd r c) = false /\ kids (nd r' a) = kids (nd r a) ++ [c]) \/
  (b = a /\ exists c, m = SDetach c /\ kids (nd r' a) = remove_first c (kids (nd r a))).
Proof.
  intros Sn r'. unfold r'. destruct (Nat.eq_dec b a) as [->|N].
  - destruct m as [| | |c|c]; unfold fhandle_sys; cbv zeta.
    + left. simpl. rewrite upd_eq. reflexivity.
    + destruct (is_nil (kids (nd r a))); simpl; rewrite upd_eq; simpl; auto.
    + destruct (is_nil (kids (nd r a))); simpl; rewrite upd_eq; simpl; auto.
    + simpl in Sn. destruct (stopping (nd r a)); [|destruct (att (nd r c) || gone (nd r c)) eqn:E].
      * left. simpl. destruct (att (nd r c)); [reflexivity|]. simpl. rewrite upd_neq by lia. reflexivity.
      * left. reflexivity.
      * right. right. left. apply orb_false_iff in E. destruct E as [E1 E2]. split; [reflexivity|]. exists c. repeat split; auto. simpl. rewrite upd_neq by lia. rewrite upd_eq. reflexivity.
    + destruct (stopping (nd r a) && _); simpl; rewrite upd_eq; simpl; [auto|]. right. right. right. eauto.
  - left. destruct m as [| | |c|c]; unfold fhandle_sys; cbv zeta; repeat match goal with |- context[if ?x then _ else _] => destruct x end; simpl; rewrite ?(upd_neq _ a _ b N); try reflexivity.
    + unfold upd. destruct (Nat.eqb_spec b c) as [->|]; reflexivity.
    + unfold upd. destruct (Nat.eqb_spec b c) as [->|]; simpl; [destruct (Nat.eqb_spec c a); [congruence|reflexivity]|destruct (Nat.eqb_spec b a); [congruence|reflexivity]].
Qed.
Lemma fh_stopped r a m ok b : sane_sys (size r) a m ->
  let r' := fst (fhandle_sys r a m ok) in
  stopped (nd r' b) = stopped (nd r b) \/ (b = a /\ stopped (nd r' a) = true /\ kids (nd r' a) = []).
Proof.
  intros Sn r'. unfold r'. destruct m as [| | |c|c]; unfold fhandle_sys; cbv zeta; repeat match goal with |- context[if ?x then _ else _] => destruct x end; simpl; try (left; reflexivity);
    try (unfold upd; destruct (Nat.eqb_spec b a) as [->|]; simpl; rewrite ?Nat.eqb_refl; auto; fail).
  - left. unfold upd. destruct (Nat.eqb_spec b c) as [->|]; reflexivity.
  - left. unfold upd. destruct (Nat.eqb_spec b c) as [->|]; simpl; [destruct (Nat.eqb_spec c a) as [->|]; reflexivity|destruct (Nat.eqb_spec b a) as [->|]; reflexivity].
Qed.
Lemma fh_att r a m ok b : sane_sys (size r) a m -> att (nd r b) = true -> att (nd (fst (fhandle_sys r a m ok)) b) = true.
Proof.
  intros Sn H. destruct m as [| | |c|c]; unfold fhandle_sys; cbv zeta; repeat match goal with |- context[if ?x then _ else _] => destruct x end; simpl; auto;
    unfold upd; try (destruct (Nat.eqb_spec b a) as [->|]; simpl; auto; fail).
  - destruct (Nat.eqb_spec b c) as [->|]; simpl; auto.
  - destruct (Nat.eqb_spec b c) as [->|]; simpl; [reflexivity|]. destruct (Nat.eqb_spec b a) as [->|]; simpl; auto.
Qed.
Lemma fh_says r a m ok b c : In (ESys b (SDetach c)) (snd (fhandle_sys r a m ok)) ->
  c = a /\ att (nd r a) = true /\ b = par (nd r a) /\ stopped (nd (fst (fhandle_sys r a m ok)) a) = true.
Proof.
  assert (F : In (ESys b (SDetach c)) (farewell r a) -> c = a /\ att (nd r a) = true /\ b = par (nd r a)).
  { unfold farewell. destruct (is_guard a), (att (nd r a)); simpl; intros H; repeat (destruct H as [H|H]; [try discriminate H; injection H as <- <-; auto|]); destruct H. }
  destruct m as [| | |d|d]; unfold fhandle_sys; cbv zeta; repeat match goal with |- context[if ?x then _ else _] => destruct x end; cbn [fst snd]; intros H;
    try (destruct (F H) as (-> & X & ->); repeat split; auto; simpl; rewrite upd_eq; reflexivity); simpl in H;
    try (repeat (destruct H as [H|H]; [discriminate H|]); destruct H; fail).
  apply in_map_iff in H. destruct H as (x & H & _). discriminate.
Qed.

(* ---- detach_child is sent once, by a child that has stopped ---- *)
Record Det (f : fstate) : Prop := {
  d_q : forall a c, In (SDetach c) (sysq (nd (base f) a)) -> stopped (nd (base f) c) = true /\ (stopped (nd (base f) a) = false -> In c (kids (nd (base f) a)));
  d_once : forall a c l1 l2, sysq (nd (base f) a) = l1 ++ SDetach c :: l2 -> ~ In (SDetach c) l2;
  d_t : forall a b c, In (ESys b (SDetach c)) (todo f a) -> stopped (nd (base f) c) = true /\ (stopped (nd (base f) b) = false -> In c (kids (nd (base f) b)))
}.

(* a change that leaves the children alone and only lengthens queues *)
Record calm (r r' : state) : Prop := {
  q_kids : forall b, kids (nd r' b) = kids (nd r b);
  q_stop : forall b, stopped (nd r' b) = stopped (nd r b);
  q_att : forall b, att (nd r' b) = att (nd r b);
  q_gone : forall b, gone (nd r b) = true -> gone (nd r' b) = true;
  q_size : size r' = size r;
  q_sys : forall b, exists l, sysq (nd r' b) = sysq (nd r b) ++ l
}.
Definition meek (r r' : state) : Prop := forall b, exists l, sysq (nd r' b) = sysq (nd r b) ++ l /\ forall c, ~ In (SDetach c) l.
Lemma calm_refl r : calm r r.
Proof. constructor; auto. intros b. exists []. now rewrite app_nil_r. Qed.
Lemma calm_trans r1 r2 r3 : calm r1 r2 -> calm r2 r3 -> calm r1 r3.
Proof.
  intros [A1 A2 A3 A4 A5 A6] [B1 B2 B3 B4 B5 B6]. constructor; intros; try congruence; auto.
  destruct (A6 b) as [l E], (B6 b) as [l' E']. exists (l ++ l'). rewrite E', E, app_assoc. reflexivity.
Qed.
Lemma calm_sys r b m : calm r (push_sys r b m).
Proof.
  unfold push_sys. destruct (opn (nd r b)); [|apply calm_refl].
  constructor; simpl; intros; unfold upd; try (destruct (Nat.eqb_spec b0 b) as [->|]; simpl; auto; fail); auto.
  destruct (Nat.eqb_spec b0 b) as [->|]; simpl; [eauto|]. exists []. now rewrite app_nil_r.
Qed.
Lemma calm_usr r b m : calm r (push_usr r b m).
Proof.
  unfold push_usr. destruct (opn (nd r b)); [|apply calm_refl].
  constructor; simpl; intros; unfold upd; try (destruct (Nat.eqb_spec b0 b) as [->|]; simpl; auto; fail); auto.
  exists []. rewrite app_nil_r. destruct (Nat.eqb_spec b0 b) as [->|]; reflexivity.
Qed.
Lemma calm_set r a v : kids v = kids (nd r a) -> stopped v = stopped (nd r a) -> att v = att (nd r a) -> (gone (nd r a) = true -> gone v = true) -> sysq v = sysq (nd r a) ->
  calm r (set_nd r a v).
Proof.
  intros. constructor; simpl; intros; unfold upd; try (destruct (Nat.eqb_spec b a) as [->|]; simpl; auto; fail); auto.
  exists []. rewrite app_nil_r. destruct (Nat.eqb_spec b a) as [->|]; auto.
Qed.
Lemma calm_destroy r c : calm r (destroy r c).
Proof. apply calm_set; reflexivity. Qed.
Lemma calm_close r c : calm r (close r c).
Proof. apply calm_set; auto. Qed.
Lemma calm_pop_usr r c : calm r (pop_usr r c).
Proof. apply calm_set; auto. Qed.
Lemma calm_deliver r b m : calm r (deliver r b m).
Proof. unfold deliver. destruct (opn (nd r b)); [apply calm_sys|]. destruct m; try apply calm_refl. destruct (att (nd r c)); [apply calm_refl|apply calm_destroy]. Qed.
Lemma meek_eq r r' : (forall b, sysq (nd r' b) = sysq (nd r b)) -> meek r r'.
Proof. intros E b. exists []. rewrite app_nil_r. split; [apply E|]. intros c []. Qed.
Lemma meek_sys r b m : (forall c, m <> SDetach c) -> meek r (push_sys r b m).
Proof.
  intros N a. unfold push_sys. destruct (opn (nd r b)); [|exists []; rewrite app_nil_r; auto].
  simpl. unfold upd. destruct (Nat.eqb_spec a b) as [->|]; simpl; [|exists []; rewrite app_nil_r; auto].
  exists [m]. split; [reflexivity|]. intros c [H|[]]. now apply N in H.
Qed.
Lemma meek_usr r b m : meek r (push_usr r b m).
Proof. apply meek_eq. intros. apply push_usr_sysq. Qed.
Lemma destroy_sysq r c b : sysq (nd (destroy r c) b) = sysq (nd r b).
Proof. simpl. unfold upd. destruct (Nat.eqb_spec b c) as [->|]; reflexivity. Qed.
Lemma meek_deliver r b m : (forall c, m <> SDetach c) -> meek r (deliver r b m).
Proof.
  intros N. unfold deliver. destruct (opn (nd r b)); [now apply meek_sys|]. destruct m; try (apply meek_eq; reflexivity).
  destruct (att (nd r c)); apply meek_eq; intros d; [reflexivity|apply destroy_sysq].
Qed.
Lemma snoc_split {B} (l q l1 l2 : list B) x : q ++ l = l1 ++ x :: l2 -> ~ In x l -> exists l3, q = l1 ++ x :: l3 /\ l2 = l3 ++ l.
Proof.
  revert q. induction l1 as [|y l1 IH]; intros [|z q] H N; simpl in *.
  - subst l. destruct N. now left.
  - injection H as -> <-. exists q. auto.
  - subst l. destruct N. right. apply in_or_app. right. now left.
  - injection H as -> H. apply IH in H; [|exact N]. destruct H as (l3 & -> & ->). exists l3. auto.
Qed.
Lemma det_calm r r' t t' k k' : Det (FState r t k) -> calm r r' -> meek r r' -> (forall a e, In e (t' a) -> In e (t a) \/ forall b c, e <> ESys b (SDetach c)) ->
  Det (FState r' t' k').
Proof.
  intros [D1 D2 D3] [Q1 Q2 Q3 Q4 Q5 Q6] M T. simpl in *. constructor; simpl.
  - intros a c H. destruct (M a) as (l & E & N). rewrite E in H. apply in_app_or in H. destruct H as [H|H]; [|now apply N in H]. apply D1 in H. now rewrite !Q1, !Q2.
  - intros a c l1 l2 E I. destruct (M a) as (l & El & N). rewrite El in E. apply snoc_split in E; [|apply N]. destruct E as (l3 & E & ->).
    apply in_app_or in I. destruct I as [I|I]; [exact (D2 _ _ _ _ E I)|exact (N _ I)].
  - intros a b c H. apply T in H. destruct H as [H|H]; [|destruct (H b c eq_refl)]. apply D3 in H. now rewrite !Q1, !Q2.
Qed.

(* a child that has still to report has not reported *)
Lemma unsent f a b c d : Tail f -> In (ESys b (SDetach c)) (todo f a) -> In (SDetach c) (sysq (nd (base f) d)) -> False.
Proof.
  intros T H Q. apply in_split in H. destruct H as (l1 & l2 & H). destruct (t_det f T _ _ _ _ _ H) as [-> ->].
  assert (X := t_drop f T a (or_introl (ex_intro _ d Q))). destruct X as [X|[_ [X|X]]]; rewrite X in H.
  - destruct l1 as [|? [|? [|? l1]]]; discriminate.
  - destruct l1 as [|? [|? [|? l1]]]; discriminate.
  - destruct l1; discriminate.
Qed.
Lemma remove_first_keeps x l c : In c l -> c <> x -> In c (remove_first x l).
Proof. intros H N. destruct (in_remove_first x l c H); [assumption|contradiction]. Qed.

Lemma pop_sys_nd r a b : let v := nd (pop_sys r a) b in
  kids v = kids (nd r b) /\ stopped v = stopped (nd r b) /\ att v = att (nd r b) /\ gone v = gone (nd r b) /\ par v = par (nd r b) /\
  sysq v = if b =? a then tl (sysq (nd r b)) else sysq (nd r b).
Proof. simpl. unfold upd. destruct (Nat.eqb_spec b a) as [->|]; simpl; repeat split. Qed.

(* what a taken system message leads to, put together *)
Definition hs (r : state) (a : nat) (m : smsg) (ok : bool) : state := pop_sys (fst (fhandle_sys r a m ok)) a.
Lemma hs_sysq r a m q ok b : sysq (nd r a) = m :: q -> a < size r -> sane_sys (size r) a m ->
  sysq (nd (hs r a m ok) b) = if b =? a then q else sysq (nd r b).
Proof.
  intros E L Sn. unfold hs. destruct (pop_sys_nd (fst (fhandle_sys r a m ok)) a b) as (_ & _ & _ & _ & _ & ->).
  destruct (fhandle_sys_frame r a m ok L Sn) as (_ & F & _). rewrite F. destruct (Nat.eqb_spec b a) as [->|]; [rewrite E|]; reflexivity.
Qed.
Lemma hs_in r a m q ok b x : sysq (nd r a) = m :: q -> a < size r -> sane_sys (size r) a m ->
  In x (sysq (nd (hs r a m ok) b)) -> In x (sysq (nd r b)) /\ (b = a -> In x q).
Proof.
  intros E L Sn. rewrite (hs_sysq r a m q ok b E L Sn). destruct (Nat.eqb_spec b a) as [->|N]; [rewrite E; split; [now right|auto]|intros H; split; [exact H|contradiction]].
Qed.

Section Step.
Variables (r : state) (t : nat -> list effect) (k : nat -> bool) (s : state).
Let f := FState r t k.
Hypotheses (R : rep r t s) (Sn : Sane f) (C : Core s) (T : Tail f) (D : Det f).

Lemma lt_open a : opn (nd r a) = true -> a < size r.
Proof. intros O. destruct (Nat.lt_ge_cases a (size r)) as [H|H]; [exact H|]. assert (X := n_gone _ Sn a H). simpl in X. rewrite X in O. discriminate. Qed.
Lemma open_s a : t a = [] -> opn (nd r a) = true -> opn (nd s a) = true.
Proof. intros E O. rewrite (r_opn _ _ _ R a), O. unfold leaving. rewrite E. reflexivity. Qed.
Lemma not_stopped a : t a = [] -> opn (nd r a) = true -> stopped (nd r a) = false.
Proof.
  intros E O. destruct (stopped (nd r a)) eqn:St; [|reflexivity]. rewrite <- (skel_stopped _ _ (r_nd _ _ _ R a)) in St.
  apply (c_stopped s C) in St. rewrite (open_s a E O) in St. destruct St; discriminate.
Qed.
Lemma kids_s a : kids (nd s a) = kids (nd r a).
Proof. apply (skel_kids _ _ (r_nd _ _ _ R a)). Qed.
Lemma r_nodup a : NoDup (kids (nd r a)).
Proof. rewrite <- kids_s. apply C. Qed.
Lemma r_kid a c : In c (kids (nd r a)) -> a < c < size r /\ att (nd r c) = true /\ par (nd r c) = a.
Proof.
  intros H. rewrite <- kids_s in H. apply (c_kids s C) in H. rewrite (r_size _ _ _ R) in H.
  rewrite (skel_att _ _ (r_nd _ _ _ R c)), (skel_par _ _ (r_nd _ _ _ R c)) in H. exact H.
Qed.
Lemma r_stopped a : stopped (nd r a) = true -> kids (nd r a) = [].
Proof. intros H. rewrite <- kids_s. rewrite <- (skel_stopped _ _ (r_nd _ _ _ R a)) in H. now apply (c_stopped s C). Qed.
Lemma r_own a : t a = [] -> opn (nd r a) = true -> att (nd r a) = true -> par (nd r a) < a /\ In a (kids (nd r (par (nd r a)))).
Proof.
  intros E O A. assert (Os := open_s a E O). rewrite <- (skel_att _ _ (r_nd _ _ _ R a)) in A. rewrite <- (skel_par _ _ (r_nd _ _ _ R a)).
  destruct (c_att s C a A) as [L [I|X]]; [|congruence]. rewrite <- kids_s. auto.
Qed.
Lemma stopped_mono a m ok b : sane_sys (size r) a m -> stopped (nd r b) = true -> stopped (nd (hs r a m ok) b) = true.
Proof.
  intros Sm H. unfold hs. destruct (pop_sys_nd (fst (fhandle_sys r a m ok)) a b) as (_ & -> & _).
  destruct (fh_stopped r a m ok b Sm) as [X|(-> & X & _)]; [now rewrite X|exact X].
Qed.
(* children that remain *)
Lemma kept a m q ok b c : sysq (nd r a) = m :: q -> t a = [] -> opn (nd r a) = true -> In c (kids (nd r b)) -> stopped (nd (hs r a m ok) b) = false ->
  In c (kids (nd (hs r a m ok) b)) \/ (b = a /\ m = SDetach c).
Proof.
  intros E Ta O I St. assert (Sm : sane_sys (size r) a m) by (apply (n_sys _ Sn a m); simpl; rewrite E; now left).
  unfold hs in *. destruct (pop_sys_nd (fst (fhandle_sys r a m ok)) a b) as (-> & X & _). rewrite X in St. clear X.
  destruct (fh_kids r a m ok b Sm) as [X|[(-> & _ & X)|[(-> & c' & _ & _ & _ & X)|(-> & c' & -> & X)]]]; rewrite X in *; auto; try discriminate.
  - left. apply in_or_app. now left.
  - destruct (Nat.eq_dec c c') as [->|N]; [auto|]. left. now apply remove_first_keeps.
Qed.
Lemma det_handle a m q ok : sysq (nd r a) = m :: q -> t a = [] -> opn (nd r a) = true ->
  Det (FState (hs r a m ok) (upd t a (snd (fhandle_sys r a m ok))) k).
Proof.
  intros E Ta O. assert (L := lt_open a O). assert (Sm : sane_sys (size r) a m) by (apply (n_sys _ Sn a m); simpl; rewrite E; now left).
  assert (Mono := fun b => stopped_mono a m ok b Sm).
  assert (Back : forall b, stopped (nd (hs r a m ok) b) = false -> stopped (nd r b) = false).
  { intros b H. destruct (stopped (nd r b)) eqn:X; [|reflexivity]. apply Mono in X. congruence. }
  constructor; cbn [base todo].
  - intros b c H. destruct (hs_in _ _ _ _ _ _ _ E L Sm H) as [H1 H2]. destruct (d_q f D b c H1) as [S1 S2]. split; [now apply Mono|].
    intros St. destruct (kept a m q ok b c E Ta O (S2 (Back b St)) St) as [X|[-> ->]]; [exact X|].
    specialize (H2 eq_refl). destruct (d_once f D a c [] q E H2).
  - intros b c l1 l2. rewrite (hs_sysq r a m q ok b E L Sm). destruct (Nat.eqb_spec b a) as [->|N]; intros H.
    + apply (d_once f D a c (m :: l1) l2). simpl. rewrite E, H. reflexivity.
    + exact (d_once f D b c l1 l2 H).
  - intros d b c. unfold upd. destruct (Nat.eqb_spec d a) as [->|N]; intros H.
    + destruct (fh_says r a m ok b c H) as (-> & A & -> & St). destruct (r_own a Ta O A) as [Lp I]. split.
      * unfold hs. destruct (pop_sys_nd (fst (fhandle_sys r a m ok)) a a) as (_ & -> & _). exact St.
      * intros St'. destruct (kept a m q ok _ a E Ta O I St') as [X|[X _]]; [exact X|]. lia.
    + destruct (d_t f D d b c H) as [S1 S2]. split; [now apply Mono|]. intros St.
      destruct (kept a m q ok b c E Ta O (S2 (Back b St)) St) as [X|[-> ->]]; [exact X|].
      exfalso. apply (unsent f d a c a T H). simpl. rewrite E. now left.
Qed.
Lemma det_send a b c l : t a = ESys b (SDetach c) :: l -> Det (FState (deliver r b (SDetach c)) (upd t a l) k).
Proof.
  intros E. assert (H : In (ESys b (SDetach c)) (todo f a)) by (simpl; rewrite E; now left).
  assert (Old : forall d e, In e (upd t a l d) -> In e (t d)) by (intros d e; unfold upd; destruct (Nat.eqb_spec d a) as [->|]; [rewrite E; now right|auto]).
  unfold deliver. destruct (opn (nd r b)) eqn:O.
  2:{ eapply (det_calm r r t); [exact D|apply calm_refl|now apply meek_eq|]. intros d e X. left. now apply Old in X. }
  destruct (calm_sys r b (SDetach c)) as [Q1 Q2 Q3 Q4 Q5 Q6].
  constructor; simpl.
  - intros d x X. rewrite !Q1, !Q2. apply push_sys_in_inv in X. destruct X as [X|[-> X]]; [now apply (d_q f D)|]. injection X as ->. now apply (d_t f D a b c).
  - intros d x l1 l2. unfold push_sys. rewrite O. simpl. unfold upd. destruct (Nat.eqb_spec d b) as [->|]; [|apply (d_once f D)]. simpl. intros X I.
    destruct (Nat.eq_dec x c) as [->|N].
    + assert (Y : In (SDetach c) (sysq (nd r b))).
      { apply in_split in I. destruct I as (l3 & l4 & ->). assert (Z : length (sysq (nd r b)) = length l1 + 1 + length l3 + length l4).
        { apply (f_equal (@length smsg)) in X. rewrite app_length in X. simpl in X. rewrite !app_length in X. simpl in X. rewrite app_length in X. simpl in X. lia. }
        apply (f_equal (fun z => nth_error z (length l1))) in X. rewrite nth_error_app1 in X by lia. rewrite nth_error_app2, Nat.sub_diag in X by lia. simpl in X. eapply nth_error_In, X. }
      exact (unsent f a b c b T H Y).
    + apply snoc_split in X; [|intros [X'|[]]; injection X'; intros; congruence]. destruct X as (l3 & X & ->). apply in_app_or in I. destruct I as [I|[I|[]]].
      * exact (d_once f D _ _ _ _ X I).
      * injection I. intros; congruence.
  - intros d x y X. rewrite !Q1, !Q2. apply Old in X. now apply (d_t f D d).
Qed.
End Step.

(* ---- every step of FlowModel ---- *)
Lemma new_nd r b : nd (new_actor r) b = if b =? size r then fresh else nd r b.
Proof. reflexivity. Qed.
Lemma det_new r t k s : Det (FState r t k) -> rep r t s -> Sane (FState r t k) -> Tail (FState r t k) -> Det (FState (new_actor r) t k).
Proof.
  intros [D1 D2 D3] R Sn T. simpl in *. constructor; cbn [base todo]; intros a.
  - intros c. rewrite !new_nd. destruct (Nat.eqb_spec a (size r)) as [->|N]; [intros []|]. intros H. assert (L := t_lt _ T a c H). simpl in L.
    destruct (Nat.eqb_spec c (size r)); [lia|]. now apply D1.
  - intros c l1 l2. rewrite new_nd. destruct (Nat.eqb_spec a (size r)) as [->|N]; [|apply D2]. destruct l1; discriminate.
  - intros b c H. assert (Lb := n_tgt _ Sn a _ H). simpl in Lb. assert (X := H). apply in_split in X. destruct X as (l1 & l2 & X). destruct (t_det _ T _ _ _ _ _ X) as [-> _].
    assert (La : a < size r). { destruct (Nat.lt_ge_cases a (size r)) as [L|L]; [exact L|]. rewrite (r_out _ _ _ R a L) in H. destruct H. }
    rewrite !new_nd. destruct (Nat.eqb_spec a (size r)); [lia|]. destruct (Nat.eqb_spec b (size r)); [lia|]. now apply D3 in H.
Qed.
Lemma calm_nd r r' : size r' = size r -> nd r' = nd r -> calm r r'.
Proof. intros E1 E2. constructor; intros; rewrite ?E2; auto. exists []. now rewrite app_nil_r. Qed.
Lemma meek_nd r r' : nd r' = nd r -> meek r r'.
Proof. intros E. apply meek_eq. intros b. now rewrite E. Qed.
Lemma pop_usr_sysq r a b : sysq (nd (pop_usr r a) b) = sysq (nd r b).
Proof. simpl. unfold upd. destruct (Nat.eqb_spec b a) as [->|]; reflexivity. Qed.
Lemma calm_hu r a u : calm r (pop_usr (fst (fhandle_usr r a u)) a).
Proof. destruct (fhandle_usr_frame r a u) as (F1 & F2 & _). eapply calm_trans; [apply calm_nd; eassumption|apply calm_pop_usr]. Qed.
Lemma hu_sysq r a u b : sysq (nd (pop_usr (fst (fhandle_usr r a u)) a) b) = sysq (nd r b).
Proof. destruct (fhandle_usr_frame r a u) as (_ & F2 & _). rewrite pop_usr_sysq, F2. reflexivity. Qed.

(* the environment: calm, or calm after a new actor *)
Lemma env_calm r y r' : step r y = Some r' -> (forall a ok, y <> Handle a ok) -> creates (FEnv y) = false -> calm r r' /\ meek r r'.
Proof.
  intros H N Cr. destruct y as [a ok|g|p|a|a p|b]; try discriminate Cr; [destruct (N a ok eq_refl)|..]; simpl in H; injection H as <-.
  - split; [apply calm_sys|apply meek_sys; discriminate].
  - split; [apply calm_usr|apply meek_usr].
  - split.
    + eapply calm_trans; [apply calm_usr|apply calm_nd; reflexivity].
    + apply meek_eq. intros c. simpl. apply push_usr_sysq.
Qed.
Lemma env_new r y r' : step r y = Some r' -> creates (FEnv y) = true -> calm (new_actor r) r' /\ meek (new_actor r) r'.
Proof.
  intros H Cr. destruct y as [a ok|g|p|a|a p|b]; try discriminate Cr; cbn [step] in H; cbv zeta in H.
  - destruct (is_guard g); [|discriminate]. injection H as <-. fold (new_actor r). destruct (opn (upd _ _ _ 0)).
    + split; [apply calm_usr|apply meek_usr].
    + split; [apply calm_destroy|apply meek_eq; intros; apply destroy_sysq].
  - destruct (_ && _); [|discriminate]. injection H as <-. split; [apply calm_sys|apply meek_sys; discriminate].
Qed.
Lemma det_step f x f' s : Matched f s -> Tail f -> Det f -> fstep f x = Some f' -> Det f'.
Proof.
  intros (R & Sn & C) T D H. destruct f as [r t k]. destruct x as [a ok|a|y]; cbn [fstep base todo told] in H.
  - destruct (t a) as [|e l] eqn:Ta; [|discriminate]. cbn [is_nil andb] in H. destruct (opn (nd r a)) eqn:O; [|discriminate].
    destruct (sysq (nd r a)) as [|m q] eqn:E.
    + destruct (started (nd r a)); [|discriminate]. destruct (usrq (nd r a)) as [|u q]; [discriminate|]. injection H as <-. unfold begin. cbn [base todo told].
      eapply det_calm; [exact D|apply calm_hu|apply meek_eq; intros; apply hu_sysq|]. intros b e. unfold upd. destruct (Nat.eqb_spec b a) as [->|]; [|auto].
      intros I. right. intros d c. destruct (fhandle_usr_none r a u e I) as (_ & _ & X). apply X.
    + injection H as <-. unfold begin. cbn [base todo told]. eapply det_handle; eassumption.
  - destruct (t a) as [|e l] eqn:Ta; [discriminate|]. injection H as <-. unfold emit. cbn [base todo told].
    assert (Old : forall d e, In e (upd t a l d) -> In e (t d) \/ forall b c, e <> ESys b (SDetach c)) by (intros d x; unfold upd; destruct (Nat.eqb_spec d a) as [->|]; [rewrite Ta; left; now right|auto]).
    destruct e as [b m|b u| |].
    + destruct m as [| | |c|c]; try (eapply det_calm; [exact D|apply calm_deliver|apply meek_deliver; discriminate|exact Old]).
      eapply det_send; eassumption.
    + eapply det_calm; [exact D|apply calm_usr|apply meek_usr|exact Old].
    + eapply det_calm; [exact D|apply calm_close|apply meek_eq; intros; simpl; unfold upd; destruct (Nat.eqb_spec b a) as [->|]; reflexivity|exact Old].
    + eapply det_calm; [exact D|apply calm_refl|now apply meek_eq|exact Old].
  - assert (N : forall a ok, y <> Handle a ok) by (intros a ok ->; discriminate H).
    assert (H' : exists r', step r y = Some r' /\ f' = FState r' t k) by (destruct y; try discriminate H; destruct (step r _) as [r'|] eqn:E; try discriminate; injection H as <-; eauto).
    destruct H' as (r' & E & ->). destruct (creates (FEnv y)) eqn:Cr.
    + destruct (env_new r y r' E Cr) as [Q M]. eapply det_calm; [eapply det_new; eassumption|exact Q|exact M|auto].
    + destruct (env_calm r y r' E N Cr) as [Q M]. eapply det_calm; [exact D|exact Q|exact M|auto].
Qed.
Lemma det_init : Det finit.
Proof.
  constructor; simpl.
  - intros a c H. do 5 (destruct a as [|a]; [simpl in H; repeat (destruct H as [H|H]; [discriminate H|]); destruct H|]). destruct H.
  - intros a c l1 l2 E. exfalso. assert (I : In (SDetach c) (l1 ++ SDetach c :: l2)) by (apply in_or_app; right; now left). rewrite <- E in I.
    do 5 (destruct a as [|a]; [simpl in I; repeat (destruct I as [I|I]; [discriminate I|]); destruct I|]). destruct I.
  - intros a b c [].
Qed.
Definition Known (f : fstate) : Prop := exists s, Matched f s /\ Tail f /\ Det f.
Lemma known_init : Known finit.
Proof. exists init. split; [split; [apply rep_init|split; [apply sane_init|apply init_core]]|]. split; [apply tail_init|apply det_init]. Qed.
Lemma known_step f x f' : Known f -> fstep f x = Some f' -> Known f'.
Proof.
  intros (s & M & T & D) H. destruct (matched_step _ _ _ _ M H) as [s' M']. exists s'. split; [exact M'|]. split; [|exact (det_step f x f' s M T D H)].
  destruct M as (R & Sn & C). eapply tail_step; eassumption.
Qed.

(* ---- paths ---- *)
Definition Apart (r : state) (nm : nat -> path) : Prop :=
  forall b b', b < b' < size r -> nm b = nm b' ->
    (att (nd r b) = true \/ gone (nd r b) = true) /\
    forall a, In b (kids (nd r a)) -> (exists l1 l2, sysq (nd r a) = l1 ++ SDetach b :: l2 /\ ~ In (SAttach b') l1) /\ ~ In b' (kids (nd r a)).
Lemma apart_calm r r' nm : calm r r' -> Apart r nm -> Apart r' nm.
Proof.
  intros [Q1 Q2 Q3 Q4 Q5 Q6] A b b' L E. rewrite Q5 in L. destruct (A b b' L E) as [A1 A2]. split.
  - rewrite Q3. destruct A1; auto.
  - intros a. rewrite !Q1. intros I. destruct (A2 a I) as [(l1 & l2 & X & N) K]. split; [|exact K]. destruct (Q6 a) as [l ->]. exists l1, (l2 ++ l). rewrite X, <- app_assoc. auto.
Qed.
Lemma apart_handle r t k s a m q ok nm : rep r t s -> Sane (FState r t k) -> Core s -> Apart r nm ->
  sysq (nd r a) = m :: q -> t a = [] -> opn (nd r a) = true -> Apart (hs r a m ok) nm.
Proof.
  intros R Sn C A E Ta O b b' L Eb. assert (La := lt_open r t k Sn a O). assert (Sm : sane_sys (size r) a m) by (apply (n_sys _ Sn a m); simpl; rewrite E; now left).
  assert (Sz : size (hs r a m ok) = size r) by (unfold hs; simpl; apply (fhandle_sys_frame r a m ok La Sm)). rewrite Sz in L.
  destruct (A b b' L Eb) as [A1 A2]. split.
  - unfold hs. destruct (pop_sys_nd (fst (fhandle_sys r a m ok)) a b) as (_ & _ & -> & -> & _). destruct A1 as [A1|A1]; [left; now apply fh_att|right].
    now apply (fhandle_sys_tree r a m ok b Sm).
  - intros d. rewrite (hs_sysq r a m q ok d E La Sm). unfold hs. destruct (pop_sys_nd (fst (fhandle_sys r a m ok)) a d) as (-> & _).
    destruct (Nat.eqb_spec d a) as [->|Nd].
    2:{ destruct (fh_kids r a m ok d Sm) as [X|[(X & _)|[(X & _)|(X & _)]]]; try contradiction. rewrite X. apply A2. }
    assert (Body : forall x, In b x -> In b (kids (nd r a)) -> m <> SDetach b -> ~ In b' x -> (exists l1 l2, q = l1 ++ SDetach b :: l2 /\ ~ In (SAttach b') l1) /\ ~ In b' x).
    { intros x Ix I Nm Nb. destruct (A2 a I) as [(l1 & l2 & X & N) K]. split; [|exact Nb]. rewrite E in X. destruct l1 as [|y l1]; simpl in X; injection X as -> X; [congruence|].
      subst q. exists l1, l2. split; [reflexivity|]. intros H. apply N. now right. }
    assert (Det' : (exists c, m = SDetach c) \/ forall c, m <> SDetach c) by (destruct m; eauto; right; discriminate).
    destruct Det' as [[c ->]|Nm].
    + assert (X : let ks := kids (nd (fst (fhandle_sys r a (SDetach c) ok)) a) in ks = [] \/ ks = remove_first c (kids (nd r a))).
      { unfold fhandle_sys. cbv zeta. destruct (stopping (nd r a) && is_nil _); simpl; rewrite upd_eq; simpl; auto. }
      destruct X as [X|X]; rewrite X; [intros []|]. intros I. assert (I' := remove_first_in _ _ _ I). apply Body; auto.
      * intros Y. injection Y as ->. destruct (remove_first_nodup b _ (r_nodup r t s R C a)) as [_ NI]. contradiction.
      * intros Y. apply remove_first_in in Y. now apply (A2 a I').
    + destruct (fh_kids r a m ok a Sm) as [X|[(_ & X & _)|[(_ & c & -> & Ac & Gc & X)|(_ & c & Y & _)]]]; [| | |now apply Nm in Y]; rewrite X; clear X.
      * intros I. apply Body; auto. now apply (A2 a I).
      * intros [].
      * intros I. apply in_app_or in I. destruct I as [I|[->|[]]].
        -- apply Body; auto; [apply in_or_app; now left|]. intros Y. apply in_app_or in Y. destruct Y as [Y|[->|[]]]; [now apply (A2 a I)|].
           destruct (A2 a I) as [(l1 & l2 & X & N) K]. rewrite E in X. destruct l1 as [|y l1]; simpl in X; [discriminate|]. injection X as X _. apply N. left. now symmetry.
        -- destruct A1; congruence.
Qed.

(* the paths of the actors that were let go can be used again *)
Definition released (r : state) (b : nat) : Prop :=
  (att (nd r b) = true \/ gone (nd r b) = true) /\ forall a, In b (kids (nd r a)) -> In (SDetach b) (sysq (nd r a)).
Lemma apart_new r t k s nm p : Apart r nm -> rep r t s -> Core s -> Sane (FState r t k) -> (forall b, b < size r -> nm b = p -> released r b) ->
  Apart (new_actor r) (upd nm (size r) p).
Proof.
  intros A R C Sn Rl b b' L E. simpl in L. unfold upd in E. destruct (Nat.eqb_spec b (size r)) as [|Nb]; [lia|].
  assert (Kb : forall a, kids (nd (new_actor r) a) = kids (nd r a) \/ kids (nd (new_actor r) a) = []).
  { intros a. rewrite new_nd. destruct (a =? size r); auto. }
  destruct (Nat.eqb_spec b' (size r)) as [->|Nb'].
  - destruct (Rl b) as [R1 R2]; [lia|exact E|]. split; [rewrite new_nd; destruct (Nat.eqb_spec b (size r)); [lia|exact R1]|].
    intros a. rewrite !new_nd. destruct (Nat.eqb_spec a (size r)) as [->|Na]; [intros []|]. intros I. split.
    + apply R2, in_split in I. destruct I as (l1 & l2 & I). exists l1, l2. split; [exact I|]. intros H.
      assert (X : In (SAttach (size r)) (sysq (nd r a))) by (rewrite I; apply in_or_app; now left). apply (n_sys _ Sn a) in X. simpl in X. lia.
    + intros H. apply (r_kid r t s R C) in H. lia.
  - destruct (A b b') as [A1 A2]; [lia|exact E|]. split; [rewrite new_nd; destruct (Nat.eqb_spec b (size r)); [lia|exact A1]|].
    intros a. rewrite !new_nd. destruct (Nat.eqb_spec a (size r)) as [->|Na]; [intros []|apply A2].
Qed.
Lemma apart_init : Apart init (name ninit).
Proof.
  intros b b' L E. simpl in L. exfalso. destruct b as [|[|[|[|[|b]]]]]; destruct b' as [|[|[|[|[|b']]]]]; simpl in E; try discriminate; lia.
Qed.

(* ---- what has been destroyed ---- *)
Definition Buried (r : state) (dd : nat -> bool) : Prop := forall c, dd c = true -> att (nd r c) = true /\ c < size r /\ forall a, ~ In c (kids (nd r a)).
Lemma buried_calm r r' dd : calm r r' -> Buried r dd -> Buried r' dd.
Proof. intros [Q1 Q2 Q3 Q4 Q5 Q6] B c H. destruct (B c H) as (B1 & B2 & B3). rewrite Q3, Q5. split; [exact B1|]. split; [exact B2|]. intros a. rewrite Q1. apply B3. Qed.
Lemma buried_new r dd : Buried r dd -> Buried (new_actor r) dd.
Proof.
  intros B c H. destruct (B c H) as (B1 & B2 & B3). rewrite new_nd. destruct (Nat.eqb_spec c (size r)); [lia|]. split; [exact B1|]. split; [simpl; lia|].
  intros a. rewrite new_nd. destruct (a =? size r); [intros []|apply B3].
Qed.
Lemma buried_handle r t k a m q ok dd : Sane (FState r t k) -> Buried r dd -> sysq (nd r a) = m :: q -> opn (nd r a) = true -> Buried (hs r a m ok) dd.
Proof.
  intros Sn B E O c H. assert (La := lt_open r t k Sn a O). assert (Sm : sane_sys (size r) a m) by (apply (n_sys _ Sn a m); simpl; rewrite E; now left).
  destruct (B c H) as (B1 & B2 & B3). unfold hs. split; [|split].
  - destruct (pop_sys_nd (fst (fhandle_sys r a m ok)) a c) as (_ & _ & -> & _). now apply fh_att.
  - simpl. destruct (fhandle_sys_frame r a m ok La Sm) as (-> & _). exact B2.
  - intros d. destruct (pop_sys_nd (fst (fhandle_sys r a m ok)) a d) as (-> & _).
    destruct (fh_kids r a m ok d Sm) as [X|[(-> & X & _)|[(-> & e & -> & Ac & Gc & X)|(-> & e & -> & X)]]]; rewrite X; clear X; auto.
    + intros I. apply in_app_or in I. destruct I as [I|[->|[]]]; [now apply B3 in I|congruence].
    + intros I. apply remove_first_in in I. now apply B3 in I.
Qed.

(* the child found is the child that reports *)
Lemma find_same nm l c : In c l -> (forall b, In b l -> nm b = nm c -> b = c) -> find_ref nm (nm c) l = Some c /\ remove_ref nm (nm c) l = remove_first c l.
Proof.
  induction l as [|y l IH]; intros I U; simpl in *; [destruct I|]. destruct (same_path (nm y) (nm c)) eqn:P.
  - apply same_path_spec in P. assert (y = c) by (apply U; auto). subst y. rewrite Nat.eqb_refl. auto.
  - destruct I as [->|I]; [rewrite same_path_refl in P; discriminate|]. destruct (IH I) as [I1 I2]; [auto|]. rewrite I1, I2. split; [reflexivity|].
    destruct (Nat.eqb_spec y c) as [->|]; [rewrite same_path_refl in P; discriminate|reflexivity].
Qed.
Lemma find_child r t k s nm a c q : rep r t s -> Sane (FState r t k) -> Core s -> Det (FState r t k) -> Apart r nm ->
  sysq (nd r a) = SDetach c :: q -> t a = [] -> opn (nd r a) = true ->
  find_ref nm (nm c) (kids (nd r a)) = Some c /\ remove_ref nm (nm c) (kids (nd r a)) = remove_first c (kids (nd r a)) /\ kids (nd r c) = [] /\ In c (kids (nd r a)).
Proof.
  intros R Sn C D A E Ta O. assert (Q : In (SDetach c) (sysq (nd r a))) by (rewrite E; now left). destruct (d_q _ D a c Q) as [Sc Ic]. cbn [base] in *.
  specialize (Ic (not_stopped r t s R C a Ta O)). assert (U : forall b, In b (kids (nd r a)) -> nm b = nm c -> b = c).
  { intros b Ib Eb. destruct (Nat.lt_trichotomy b c) as [L|[L|L]]; [|exact L|]; exfalso.
    - assert (Lc := r_kid r t s R C a c Ic). destruct (A b c) as [_ A2]; [lia|exact Eb|]. now apply (A2 a Ib).
    - assert (Lc := r_kid r t s R C a b Ib). destruct (A c b) as [_ A2]; [lia|now symmetry|]. now apply (A2 a Ic). }
  destruct (find_same nm _ c Ic U) as [F1 F2]. split; [exact F1|]. split; [exact F2|]. split; [|exact Ic]. exact (r_stopped r t s R C c Sc).
Qed.

(* ---- the simulation ---- *)
Record Fine (n : nstate) : Prop := {
  f_known : Known (flow n);
  f_apart : Apart (base (flow n)) (name n);
  f_buried : Buried (base (flow n)) (dead n)
}.
Lemma fine_init : Fine ninit.
Proof. constructor; [apply known_init|apply apart_init|]. intros c H. discriminate. Qed.
Lemma fine_dead n a : Fine n -> dead n a = true -> exiting (flow n) a.
Proof. intros [(s & M & T & D) A B] H. destruct (B a H) as (B1 & _ & B3). apply (t_drop _ T). right. auto. Qed.
Lemma fine_dead_idle n a ok : Fine n -> dead n a = true -> fstep (flow n) (FHandle a ok) = None.
Proof.
  intros F H. assert (X := fine_dead n a F H). simpl. destruct X as [X|[X _]]; [rewrite X; reflexivity|]. rewrite X, andb_false_r. reflexivity.
Qed.
Definition frees (n : nstate) (x : naction) : Prop := reuses (fun f b => released (base f) b) n x.

Lemma step_same n x : Fine n -> (forall y, x = Act y -> creates y = false) ->
  match nstep n x with
  | Some n' => fstep (flow n) (nameless x) = Some (flow n')
  | None => fstep (flow n) (nameless x) = None
  end.
Proof.
  intros F Cr. destruct x as [y|g nm|p nm]; cbn [nstep nameless].
  - destruct y as [a ok|a|y].
    + destruct (dead n a) eqn:Dd; [now apply fine_dead_idle|]. destruct (sysq (nd (base (flow n)) a)) as [|m q] eqn:E.
      * destruct (fstep (flow n) (FHandle a ok)); reflexivity.
      * destruct m as [| | |c|c]; try (destruct (fstep (flow n) (FHandle a ok)); reflexivity).
        cbn [fstep]. rewrite E. destruct (todo (flow n) a) as [|e l] eqn:Ta; [|reflexivity]. cbn [is_nil andb]. destruct (opn (nd (base (flow n)) a)) eqn:O; [|reflexivity].
        cbn [flow]. f_equal. destruct F as [(s & (R & Sn & C) & T & D) A B]. destruct n as [[r t k] nm dd]. cbn [flow base todo name] in *.
        destruct (find_child r t k s nm a c q R Sn C D A E Ta O) as (_ & X & _). unfold begin, detach, fhandle_sys. cbv zeta. rewrite X. reflexivity.
    + simpl creates. cbv iota. unfold lift. destruct (fstep (flow n) (FEmit a)); reflexivity.
    + rewrite (Cr _ eq_refl). unfold lift. destruct (fstep (flow n) (FEnv y)); reflexivity.
  - unfold born. destruct (fstep (flow n) (FEnv (CreateTop g))); reflexivity.
  - unfold born. destruct (fstep (flow n) (FEnv (CreateChild p))); reflexivity.
Qed.
Lemma step_legal n x n' : nstep n x = Some n' -> forall y, x = Act y -> creates y = false.
Proof. intros H y ->. destruct y as [a ok|a|y]; try reflexivity. cbn [nstep] in H. destruct (creates (FEnv y)); [discriminate H|reflexivity]. Qed.
Lemma below_leaf d s k : kids (nd s k) = [] -> below d s k = [k].
Proof. intros E. destruct d; simpl; [reflexivity|]. rewrite E. reflexivity. Qed.
Lemma flow_kept r t k y f' : fstep (FState r t k) (FEnv y) = Some f' -> (forall a ok, y <> Handle a ok) /\ step r y = Some (base f').
Proof.
  intros H. assert (N : forall a ok, y <> Handle a ok) by (intros a ok ->; discriminate H). split; [exact N|].
  destruct y; try discriminate H; cbn [fstep base todo told] in H; destruct (step r _) as [r'|] eqn:E; try discriminate; injection H as <-; reflexivity.
Qed.
Lemma emit_calm r t k a f' : fstep (FState r t k) (FEmit a) = Some f' -> calm r (base f').
Proof.
  cbn [fstep base todo told]. destruct (t a) as [|e l]; [discriminate|]. intros H. injection H as <-. unfold emit. destruct e as [b m|b u| |]; cbn [base].
  - apply calm_deliver.
  - apply calm_usr.
  - apply calm_close.
  - apply calm_refl.
Qed.
Lemma fine_step n x n' : Fine n -> frees n x -> nstep n x = Some n' -> Fine n'.
Proof.
  intros F Fr H. assert (Cr := step_legal n x n' H). assert (Sm := step_same n x F Cr). rewrite H in Sm.
  assert (Kn := known_step _ _ _ (f_known n F) Sm). destruct F as [(s & (R & Sn & C) & T & D) A B]. destruct n as [[r t k] nm dd]. cbn [flow base todo name dead] in *.
  destruct x as [y|g p|p nm1].
  - destruct y as [a ok|a|y].
    + assert (Sm' := Sm). cbn [nameless fstep base todo told] in Sm. destruct (t a) as [|e l] eqn:Ta; [|discriminate]. cbn [is_nil andb] in Sm. destruct (opn (nd r a)) eqn:O; [|discriminate].
      assert (Nm : name n' = nm).
      { cbn [nstep flow dead name base todo] in H. destruct (dd a); [discriminate|]. destruct (sysq (nd r a)) as [|[| | |c|c] q]; unfold lift in H;
          try (destruct (fstep (FState r t k) (FHandle a ok)); [injection H as <-; reflexivity|discriminate]). rewrite Ta, O in H. injection H as <-. reflexivity. }
      destruct (sysq (nd r a)) as [|m q] eqn:E.
      * destruct (started (nd r a)); [|discriminate]. destruct (usrq (nd r a)) as [|u q]; [discriminate|]. injection Sm as Sm.
        assert (Dd : dead n' = dd). { cbn [nstep flow dead name base todo] in H. destruct (dd a); [discriminate|]. rewrite E in H. unfold lift in H. destruct (fstep _ _); [injection H as <-; reflexivity|discriminate]. }
        constructor; [exact Kn|..]; rewrite ?Nm, ?Dd, <- Sm; unfold begin; cbn [base]; [eapply apart_calm|eapply buried_calm]; try eassumption; apply calm_hu.
      * injection Sm as Sm. constructor; [exact Kn|..]; rewrite ?Nm, <- Sm; unfold begin; cbn [base].
        -- eapply apart_handle; eassumption.
        -- assert (Bh := buried_handle r t k a m q ok dd Sn B E O). destruct m as [| | |c|c];
           try (assert (Dd : dead n' = dd) by (cbn [nstep flow dead name base todo] in H; destruct (dd a); [discriminate|]; rewrite E in H; unfold lift in H; destruct (fstep _ _); [injection H as <-; reflexivity|discriminate]);
                rewrite Dd; exact Bh).
           destruct (find_child r t k s nm a c q R Sn C D A E Ta O) as (F1 & F2 & F3 & F4).
           assert (Dd : dead n' = bury r dd (Some c)).
           { cbn [nstep flow dead name base todo] in H; destruct (dd a); [discriminate|]; rewrite E, Ta, O in H. cbn [is_nil andb] in H. injection H as <-. cbn [dead]. now rewrite F1. }
           rewrite Dd. intros b. unfold bury. rewrite (below_leaf _ _ _ F3). simpl existsb. rewrite orb_false_r. intros X. apply orb_true_iff in X. destruct X as [X|X]; [now apply Bh|].
           apply Nat.eqb_eq in X. subst b. clear Bh. assert (La := lt_open r t k Sn a O). destruct (r_kid r t s R C a c F4) as (L & Ac & Pc). fold (hs r a (SDetach c) ok).
           split; [|split].
           ++ unfold hs. destruct (pop_sys_nd (fst (fhandle_sys r a (SDetach c) ok)) a c) as (_ & _ & -> & _). now apply fh_att.
           ++ unfold hs. change (c < size (fst (fhandle_sys r a (SDetach c) ok))). destruct (fhandle_sys_frame r a (SDetach c) ok La I) as (Z & _). cbv zeta in Z. rewrite Z. lia.
           ++ intros d Id. unfold hs in Id. destruct (pop_sys_nd (fst (fhandle_sys r a (SDetach c) ok)) a d) as (X & _). rewrite X in Id. clear X.
              assert (Na : ~ In c (remove_first c (kids (nd r a)))) by (apply remove_first_nodup; exact (r_nodup r t s R C a)).
              destruct (Nat.eq_dec d a) as [->|Nd].
              ** revert Id. unfold fhandle_sys. cbv zeta. destruct (stopping (nd r a) && is_nil _); simpl; rewrite upd_eq; simpl; auto.
              ** destruct (fh_kids r a (SDetach c) ok d I) as [X|[(X & _)|[(X & _)|(X & _)]]]; try contradiction. rewrite X in Id. apply (r_kid r t s R C) in Id. lia.
    + cbn [nstep] in H. simpl creates in H. cbv iota in H. unfold lift in H. destruct (fstep _ (FEmit a)) as [f'|] eqn:E; [|discriminate]. injection H as <-. cbn [flow name dead] in *.
      assert (Q := emit_calm _ _ _ _ _ E). constructor; [exact Kn|..]; cbn [flow name dead]; [eapply apart_calm|eapply buried_calm]; eassumption.
    + assert (Cy := Cr _ eq_refl). cbn [nstep] in H. rewrite Cy in H. unfold lift in H. destruct (fstep _ (FEnv y)) as [f'|] eqn:E; [|discriminate]. injection H as <-. cbn [flow name dead] in *.
      destruct (flow_kept _ _ _ _ _ E) as [N St]. destruct (env_calm r y (base f') St N Cy) as [Q _]. constructor; [exact Kn|..]; cbn [flow name dead]; [eapply apart_calm|eapply buried_calm]; eassumption.
  - cbn [nstep] in H. unfold born in H. destruct (fstep _ (FEnv (CreateTop g))) as [f'|] eqn:E; [|discriminate]. injection H as <-. cbn [flow name dead base] in *.
    destruct (flow_kept _ _ _ _ _ E) as [N St]. destruct (env_new r (CreateTop g) (base f') St eq_refl) as [Q _]. constructor; [exact Kn|..]; cbn [flow name dead].
    + eapply apart_calm; [exact Q|]. eapply apart_new; try eassumption.
    + eapply buried_calm; [exact Q|]. now apply buried_new.
  - cbn [nstep] in H. unfold born in H. destruct (fstep _ (FEnv (CreateChild p))) as [f'|] eqn:E; [|discriminate]. injection H as <-. cbn [flow name dead base] in *.
    destruct (flow_kept _ _ _ _ _ E) as [N St]. destruct (env_new r (CreateChild p) (base f') St eq_refl) as [Q _]. constructor; [exact Kn|..]; cbn [flow name dead].
    + eapply apart_calm; [exact Q|]. eapply apart_new; try eassumption.
    + eapply buried_calm; [exact Q|]. now apply buried_new.
Qed.

(* ---- reuse of the path of a cell that is gone ---- *)
Lemma gone_calm f r' t' k' b : calm (base f) r' -> cell_gone f b -> cell_gone (FState r' t' k') b.
Proof.
  intros [Q1 Q2 Q3 Q4 Q5 Q6] [G N]. split; cbn [base].
  - rewrite Q3. destruct G; auto.
  - intros a. rewrite Q1. apply N.
Qed.
Lemma gone_new r t k b : cell_gone (FState r t k) b -> b < size r -> cell_gone (FState (new_actor r) t k) b.
Proof.
  intros [G N] L. split; cbn [base] in *.
  - rewrite new_nd. destruct (Nat.eqb_spec b (size r)); [lia|exact G].
  - intros a. rewrite new_nd. destruct (a =? size r); [intros []|apply N].
Qed.
Lemma gone_handle r t k a m q ok t' k' b : Sane (FState r t k) -> sysq (nd r a) = m :: q -> opn (nd r a) = true ->
  cell_gone (FState r t k) b -> cell_gone (FState (hs r a m ok) t' k') b.
Proof.
  intros Sn E O [G N]. assert (Sm : sane_sys (size r) a m) by (apply (n_sys _ Sn a m); simpl; rewrite E; now left). cbn [base] in *. unfold hs. split; cbn [base].
  - destruct (pop_sys_nd (fst (fhandle_sys r a m ok)) a b) as (_ & _ & -> & -> & _). destruct G as [G|G]; [left|right; now apply fh_att].
    now apply (fhandle_sys_tree r a m ok b Sm).
  - intros d. destruct (pop_sys_nd (fst (fhandle_sys r a m ok)) a d) as (-> & _).
    destruct (fh_kids r a m ok d Sm) as [X|[(-> & X & _)|[(-> & e & -> & Ac & Gc & X)|(-> & e & -> & X)]]]; rewrite X; clear X; auto.
    + intros I. apply in_app_or in I. destruct I as [I|[->|[]]]; [now apply N in I|destruct G; congruence].
    + intros I. apply remove_first_in in I. now apply N in I.
Qed.
Lemma gone_step f x f' b : Known f -> fstep f x = Some f' -> b < size (base f) -> cell_gone f b -> cell_gone f' b.
Proof.
  intros (s & (R & Sn & C) & T & D) H L G. destruct f as [r t k]. destruct x as [a ok|a|y].
  - cbn [fstep base todo told] in H. destruct (t a) as [|e l] eqn:Ta; [|discriminate]. cbn [is_nil andb] in H. destruct (opn (nd r a)) eqn:O; [|discriminate].
    destruct (sysq (nd r a)) as [|m q] eqn:E.
    + destruct (started (nd r a)); [|discriminate]. destruct (usrq (nd r a)) as [|u q]; [discriminate|]. injection H as <-. unfold begin. cbn [base todo told].
      eapply (gone_calm (FState r t k)); [apply calm_hu|exact G].
    + injection H as <-. unfold begin. eapply gone_handle; eassumption.
  - assert (Q := emit_calm _ _ _ _ _ H). destruct f' as [r' t' k']. eapply (gone_calm (FState r t k)); [exact Q|exact G].
  - destruct (flow_kept _ _ _ _ _ H) as [N St]. destruct f' as [r' t' k']. cbn [base] in *. destruct (creates (FEnv y)) eqn:Cr.
    + destruct (env_new r y r' St Cr) as [Q _]. eapply (gone_calm (FState (new_actor r) t k)); [exact Q|]. now apply gone_new.
    + destruct (env_calm r y r' St N Cr) as [Q _]. eapply (gone_calm (FState r t k)); [exact Q|exact G].
Qed.
Lemma size_step f x f' : Known f -> fstep f x = Some f' -> size (base f') = if creates x then S (size (base f)) else size (base f).
Proof.
  intros (s & (R & Sn & C) & T & D) H. destruct f as [r t k]. destruct x as [a ok|a|y].
  - cbn [fstep base todo told] in H. destruct (t a) as [|e l] eqn:Ta; [|discriminate]. cbn [is_nil andb] in H. destruct (opn (nd r a)) eqn:O; [|discriminate].
    destruct (sysq (nd r a)) as [|m q] eqn:E.
    + destruct (started (nd r a)); [|discriminate]. destruct (usrq (nd r a)) as [|u q]; [discriminate|]. injection H as <-. unfold begin. cbn [base creates].
      apply (q_size _ _ (calm_hu r a u)).
    + injection H as <-. unfold begin. cbn [base creates]. assert (La := lt_open r t k Sn a O). assert (Sm : sane_sys (size r) a m) by (apply (n_sys _ Sn a m); simpl; rewrite E; now left).
      change (size (fst (fhandle_sys r a m ok)) = size r). apply (fhandle_sys_frame r a m ok La Sm).
  - apply (q_size _ _ (emit_calm _ _ _ _ _ H)).
  - destruct (flow_kept _ _ _ _ _ H) as [N St]. destruct f' as [r' t' k']. cbn [base] in *. destruct (creates (FEnv y)) eqn:Cr.
    + destruct (env_new r y r' St Cr) as [Q _]. apply (q_size _ _ Q).
    + destruct (env_calm r y r' St N Cr) as [Q _]. apply (q_size _ _ Q).
Qed.
Lemma gone_released f b : cell_gone f b -> released (base f) b.
Proof. intros [G N]. split; [tauto|]. intros a I. now apply N in I. Qed.
Definition Unique (n : nstate) : Prop :=
  forall b b', b < b' < size (base (flow n)) -> name n b = name n b' -> cell_gone (flow n) b.
Lemma name_step n x n' : nstep n x = Some n' -> name n' = match gives n x with None => name n | Some p => upd (name n) (size (base (flow n))) p end.
Proof.
  intros H. destruct x as [y|g nm|p nm]; cbn [nstep gives] in *.
  - assert (X : forall r, lift n r = Some n' -> name n' = name n) by (intros [g|] E; [injection E as <-; reflexivity|discriminate]).
    destruct y as [a ok|a|y].
    + destruct (dead n a); [discriminate|]. destruct (sysq _) as [|[| | |c|c] q]; try (eapply X, H). destruct (_ && _); [|discriminate]. injection H as <-. reflexivity.
    + simpl creates in H. eapply X, H.
    + destruct (creates (FEnv y)); [discriminate|]. eapply X, H.
  - unfold born in H. destruct (fstep _ _); [injection H as <-; reflexivity|discriminate].
  - unfold born in H. destruct (fstep _ _); [injection H as <-; reflexivity|discriminate].
Qed.
Lemma gives_creates n x : (forall y, x = Act y -> creates y = false) -> creates (nameless x) = match gives n x with None => false | Some _ => true end.
Proof. intros H. destruct x as [y|g nm|p nm]; simpl; auto. Qed.
Lemma unique_step n x n' : Fine n -> Unique n -> reuses cell_gone n x -> nstep n x = Some n' -> Unique n'.
Proof.
  intros F U Ru H. assert (Cr := step_legal n x n' H). assert (Sm := step_same n x F Cr). rewrite H in Sm.
  intros b b' L E. rewrite (size_step _ _ _ (f_known n F) Sm), (gives_creates n x Cr) in L. rewrite (name_step n x n' H) in E. unfold reuses in Ru.
  assert (Lt : b < size (base (flow n))) by (destruct (gives n x); lia). eapply gone_step; [apply F|exact Sm|exact Lt|].
  destruct (gives n x) as [p|].
  - unfold upd in E. destruct (Nat.eqb_spec b (size (base (flow n)))); [lia|]. destruct (Nat.eqb_spec b' (size (base (flow n)))) as [->|]; [now apply Ru|]. apply (U b b'); [lia|exact E].
  - now apply (U b b').
Qed.
Lemma reuses_frees n x : reuses cell_gone n x -> frees n x.
Proof. unfold reuses, frees. unfold reuses. destruct (gives n x); [|auto]. intros H b L E. apply gone_released. now apply H. Qed.
Lemma careful_inv n : careful n -> Fine n /\ Unique n /\ freachable (flow n).
Proof.
  assert (X : forall xs n n', Fine n -> Unique n -> freachable (flow n) -> all_along (reuses cell_gone) n xs -> nrun n xs = Some n' -> Fine n' /\ Unique n' /\ freachable (flow n')).
  { induction xs as [|x xs IH]; intros m m' F U Re W H; simpl in *; [injection H as <-; auto|]. destruct W as [W1 W2]. destruct (nstep m x) as [m1|] eqn:E; [|discriminate].
    apply (IH m1); auto; [eapply fine_step; try eassumption; now apply reuses_frees|eapply unique_step; eassumption|].
    assert (Sm := step_same m x F (step_legal m x m1 E)). rewrite E in Sm. destruct Re as [ys Re]. exists (ys ++ [nameless x]). clear - Re Sm. revert Re. generalize finit.
    induction ys as [|y ys IHy]; intros g Re; simpl in *; [injection Re as ->; rewrite Sm; reflexivity|]. destruct (fstep g y); [now apply IHy|discriminate]. }
  intros (xs & W & H). eapply X; [apply fine_init| |exists []; reflexivity|exact W|exact H].
  intros b b' L E. simpl in L. exfalso. destruct b as [|[|[|[|[|b]]]]]; destruct b' as [|[|[|[|[|b']]]]]; simpl in E; try discriminate; lia.
Qed.
Lemma fine_no_use n a : Fine n -> ~ uses_dead n a.
Proof.
  intros F [Dd U]. assert (X := fine_dead n a F Dd). destruct U as [(ok & f' & U)|[(b & m & l & U)|(b & m & l & U)]].
  - rewrite (fine_dead_idle n a ok F Dd) in U. discriminate.
  - destruct X as [X|[_ [X|X]]]; rewrite X in U; discriminate.
  - destruct X as [X|[_ [X|X]]]; rewrite X in U; discriminate.
Qed.

(* ---- reuse of the path of a closed mailbox ---- *)
Definition Shutting (f : fstate) : Prop := forall a, In EClose (todo f a) ->
  opn (nd (base f) a) = true \/ (gone (nd (base f) a) = true /\ att (nd (base f) a) = false).
Definition lasting (r r' : state) : Prop := forall b, b < size r ->
  (opn (nd r b) = true -> opn (nd r' b) = true \/ (gone (nd r' b) = true /\ att (nd r' b) = false)) /\
  (gone (nd r b) = true -> att (nd r b) = false -> gone (nd r' b) = true /\ att (nd r' b) = false).
Lemma lasting_sys r b m : lasting r (push_sys r b m).
Proof. intros c _. unfold push_sys. destruct (opn (nd r b)) eqn:O; [|auto]. simpl. unfold upd. destruct (Nat.eqb_spec c b) as [->|]; simpl; auto. Qed.
Lemma lasting_usr r b m : lasting r (push_usr r b m).
Proof. intros c _. unfold push_usr. destruct (opn (nd r b)) eqn:O; [|auto]. simpl. unfold upd. destruct (Nat.eqb_spec c b) as [->|]; simpl; auto. Qed.
Lemma lasting_destroy r c : att (nd r c) = false -> lasting r (destroy r c).
Proof. intros A b _. simpl. unfold upd. destruct (Nat.eqb_spec b c) as [->|]; simpl; auto. Qed.
Lemma lasting_deliver r b m : lasting r (deliver r b m).
Proof.
  unfold deliver. destruct (opn (nd r b)); [apply lasting_sys|]. destruct m; try (intros c' _; auto; fail).
  destruct (att (nd r c)) eqn:A; [intros d _; auto|]. now apply lasting_destroy.
Qed.
Lemma lasting_new r : lasting r (new_actor r).
Proof. intros b L. rewrite new_nd. destruct (Nat.eqb_spec b (size r)); [lia|auto]. Qed.
Lemma lasting_handle r a m ok : lasting r (hs r a m ok).
Proof.
  intros b L. unfold hs. assert (P : opn (nd (pop_sys (fst (fhandle_sys r a m ok)) a) b) = opn (nd (fst (fhandle_sys r a m ok)) b)) by (simpl; unfold upd; destruct (Nat.eqb_spec b a) as [->|]; reflexivity).
  rewrite P. destruct (pop_sys_nd (fst (fhandle_sys r a m ok)) a b) as (_ & _ & -> & -> & _). clear P.
  destruct m as [| | |c|c]; unfold fhandle_sys; cbv zeta.
  1-3, 5: try destruct (is_nil (kids (nd r a))); try destruct (stopping (nd r a) && _); cbn [fst]; simpl; unfold upd; destruct (Nat.eqb_spec b a) as [->|]; simpl; auto.
  destruct (stopping (nd r a)); cbn [fst].
  - destruct (att (nd r c)) eqn:A; [auto|]. exact (lasting_destroy r c A b L).
  - destruct (att (nd r c) || gone (nd r c)) eqn:A; [cbn [fst]; auto|]. apply orb_false_iff in A. destruct A as [A G]. cbn [fst]. unfold link. simpl. unfold upd.
    destruct (Nat.eqb_spec b c) as [->|]; simpl; destruct (Nat.eqb_spec c a) as [->|]; simpl; try rewrite Nat.eqb_refl; simpl; auto; try (split; [auto|congruence]);
      destruct (Nat.eqb_spec b a) as [->|]; simpl; auto.
Qed.
Lemma shutting_lasting r r' t t' k k' s : rep r t s -> Shutting (FState r t k) -> lasting r r' ->
  (forall a, In EClose (t' a) -> In EClose (t a) \/ opn (nd r' a) = true \/ (gone (nd r' a) = true /\ att (nd r' a) = false)) -> Shutting (FState r' t' k').
Proof.
  intros R S L T a H. apply T in H. destruct H as [H|H]; [|exact H]. assert (La : a < size r).
  { destruct (Nat.lt_ge_cases a (size r)) as [X|X]; [exact X|]. rewrite (r_out _ _ _ R a X) in H. destruct H. }
  destruct (L a La) as [L1 L2]. cbn [base]. destruct (S a H) as [X|[X Y]]; auto.
Qed.
Lemma shutting_step f x f' : Known f -> Shutting f -> fstep f x = Some f' -> Shutting f'.
Proof.
  intros (s & (R & Sn & C) & T & D) S H. destruct f as [r t k]. destruct x as [a ok|a|y].
  - cbn [fstep base todo told] in H. destruct (t a) as [|e l] eqn:Ta; [|discriminate]. cbn [is_nil andb] in H. destruct (opn (nd r a)) eqn:O; [|discriminate].
    destruct (sysq (nd r a)) as [|m q] eqn:E.
    + destruct (started (nd r a)); [|discriminate]. destruct (usrq (nd r a)) as [|u q]; [discriminate|]. injection H as <-. unfold begin. cbn [base todo told].
      destruct (fhandle_usr_frame r a u) as (_ & F2 & F3). eapply shutting_lasting; [exact R|exact S|..].
      * intros b _. simpl. rewrite F2. unfold upd. destruct (Nat.eqb_spec b a) as [->|]; simpl; rewrite ?F2; auto.
      * intros b. unfold upd. destruct (Nat.eqb_spec b a) as [->|]; [|auto]. intros X. now apply F3 in X.
    + injection H as <-. unfold begin. cbn [base todo told]. assert (La := lt_open r t k Sn a O). eapply shutting_lasting; [exact R|exact S|apply lasting_handle|].
      intros b. destruct (Nat.eq_dec b a) as [->|N]; [|rewrite upd_neq by exact N; auto]. intros _. right. now apply (lasting_handle r a m ok a La).
  - cbn [fstep base todo told] in H. destruct (t a) as [|e l] eqn:Ta; [discriminate|]. injection H as <-.
    assert (Old : forall d x, In x (upd t a l d) -> In x (t d)) by (intros d x; unfold upd; destruct (Nat.eqb_spec d a) as [->|]; [rewrite Ta; now right|auto]).
    unfold emit. cbn [base todo told]. destruct e as [b m|b u| |];
      [eapply shutting_lasting; [exact R|exact S|apply lasting_deliver|intros d X; left; now apply Old in X]
      |eapply shutting_lasting; [exact R|exact S|apply lasting_usr|intros d X; left; now apply Old in X]| |
       eapply shutting_lasting; [exact R|exact S|intros d _; auto|intros d X; left; now apply Old in X]].
    assert (X := t_close _ T a [] l Ta). subst l. intros d. cbn [base todo]. unfold close. simpl. unfold upd. destruct (Nat.eqb_spec d a) as [->|].
    + intros [X|[]]. discriminate.
    + apply S.
  - destruct (flow_kept _ _ _ _ _ H) as [N St]. assert (F' : f' = FState (base f') t k).
    { destruct y; try discriminate H; cbn [fstep base todo told] in H; destruct (step r _) as [r'|]; try discriminate; injection H as <-; reflexivity. }
    rewrite F'. eapply shutting_lasting; [exact R|exact S| |auto]. clear H F'. destruct y as [a ok|g|p|a|a p|b]; [destruct (N a ok eq_refl)|..]; cbn [step] in St; cbv zeta in St.
    + destruct (is_guard g); [|discriminate]. injection St as <-. fold (new_actor r). intros b L. destruct (lasting_new r b L) as [X Y]. destruct (opn (upd _ _ _ 0)).
      * destruct (lasting_usr (new_actor r) 0 (UAdd g (size r)) b) as [X' Y']; [cbn [new_actor size]; apply Nat.lt_lt_succ_r, L|]. split; [intros Z; apply X in Z; destruct Z as [Z|[Z Z']]; auto|]. intros Z Z'. destruct (Y Z Z'); auto.
      * assert (Z0 : att (nd (new_actor r) (size r)) = false) by (rewrite new_nd, Nat.eqb_refl; reflexivity).
        assert (Lb : b < size (new_actor r)) by (cbn [new_actor size]; apply Nat.lt_lt_succ_r, L). destruct (lasting_destroy (new_actor r) (size r) Z0 b Lb) as [X' Y'].
        split; [intros Z; apply X in Z; destruct Z as [Z|[Z Z']]; auto|]. intros Z Z'. destruct (Y Z Z'); auto.
    + destruct (_ && _); [|discriminate]. injection St as <-. intros b L. destruct (lasting_new r b L) as [X Y].
      destruct (lasting_sys (new_actor r) p (SAttach (size r)) b) as [X' Y']; [cbn [new_actor size]; apply Nat.lt_lt_succ_r, L|]. split; [intros Z; apply X in Z; destruct Z as [Z|[Z Z']]; auto|]. intros Z Z'. destruct (Y Z Z'); auto.
    + injection St as <-. apply lasting_sys.
    + injection St as <-. apply lasting_usr.
    + injection St as <-. intros c L. cbn [nd]. now apply lasting_usr.
Qed.
Lemma pend_in b m n t : In m (pend (to_sys b) n t) -> exists d, d < n /\ In (ESys b m) (t d).
Proof.
  induction n as [|n IH]; simpl; [intros []|]. intros H. apply in_app_or in H. destruct H as [H|H].
  - apply in_flat_map in H. destruct H as (e & I & H). destruct e as [b' m'| | |]; simpl in H; try destruct H. destruct (Nat.eqb_spec b' b) as [->|]; [|destruct H].
    destruct H as [->|[]]. exists n. split; [lia|exact I].
  - destruct (IH H) as (d & L & I). exists d. split; [lia|exact I].
Qed.
Lemma closed_released f s b : Full f s -> Shutting f -> 1 <= b < size (base f) -> mailbox_closed f b -> released (base f) b.
Proof.
  intros ((R & Sn & (C & Lv & Sf) & Sh) & T & K) S Lb O. unfold mailbox_closed in O.
  assert (Os : opn (nd s b) = false) by (rewrite (r_opn _ _ _ R b), O; reflexivity).
  assert (E := r_nd _ _ _ R b). split.
  - destruct (att (nd (base f) b)) eqn:A; [auto|]. right. rewrite <- (skel_att _ _ E) in A.
    destruct (s_pend s Sf b) as (P & _); [rewrite (r_size _ _ _ R); exact Lb|exact A|]. rewrite (skel_gone _ _ E) in P. destruct (gone (nd (base f) b)); [reflexivity|]. rewrite P in Os; [discriminate|reflexivity].
  - intros a I. assert (I' := I). rewrite <- (skel_kids _ _ (r_nd _ _ _ R a)) in I'.
    assert (Oa : opn (nd s a) = true). { destruct (opn (nd s a)) eqn:Oa; [reflexivity|]. rewrite (s_closed s Sf a Oa) in I'. destruct I'. }
    assert (X := l_detw s Lv a b I' Os). apply (Permutation.Permutation_in _ (r_sys _ _ _ R a Oa)) in X. apply in_app_or in X. destruct X as [X|X]; [exact X|].
    exfalso. apply pend_in in X. destruct X as (d & _ & X). apply in_split in X. destruct X as (l1 & l2 & X). destruct (t_det f T _ _ _ _ _ X) as [-> ->].
    destruct (S d) as [Y|[_ Y]]; [rewrite X; apply in_or_app; right; simpl; auto|congruence|].
    apply (r_kid _ _ _ R C) in I. destruct I as (_ & I & _). congruence.
Qed.
Lemma orderly_frees n s x : Full (flow n) s -> Fine n -> name n 0 = [] -> Shutting (flow n) -> reuses mailbox_closed n x -> frees n x.
Proof.
  intros Fu F N0 S. unfold frees, reuses. destruct (gives n x) as [p|] eqn:G; [|auto]. intros H b L E. eapply closed_released; [exact Fu|exact S| |now apply H].
  split; [|exact L]. destruct b as [|b]; [|lia]. rewrite N0 in E. subst p. destruct x; simpl in G; discriminate.
Qed.
Definition Orderly (n : nstate) : Prop := Fine n /\ Shutting (flow n) /\ (exists s, Full (flow n) s) /\ name n 0 = [] /\ fwell (flow n).
Lemma frun_snoc ys : forall g f f' x, frun g ys = Some f -> fstep f x = Some f' -> frun g (ys ++ [x]) = Some f'.
Proof. induction ys as [|y ys IH]; intros g f f' x H E; simpl in *; [injection H as ->; rewrite E; reflexivity|]. destruct (fstep g y); [eapply IH; eassumption|discriminate]. Qed.
Lemma fbehaved_snoc ys : forall g f x, frun g ys = Some f -> fbehaved_run g ys -> fbehaved f x -> fbehaved_run g (ys ++ [x]).
Proof.
  induction ys as [|y ys IH]; intros g f x H B E; simpl in *; [injection H as ->; split; [exact E|destruct (fstep f x); simpl; auto]|].
  destruct B as [B1 B2]. split; [exact B1|]. destruct (fstep g y); [eapply IH; eassumption|discriminate].
Qed.
Lemma orderly_one n x n' : Orderly n -> nbehaved n x -> reuses mailbox_closed n x -> nstep n x = Some n' -> Orderly n' /\ fstep (flow n) (nameless x) = Some (flow n').
Proof.
  intros (F & S & (s & Fu) & N0 & ys & B & Re) Nb Ru H. assert (Cr := step_legal n x n' H). assert (Sm := step_same n x F Cr). rewrite H in Sm. split; [|exact Sm].
  assert (Fb : fbehaved (flow n) (nameless x)) by (destruct x; simpl in *; auto).
  assert (Fr := orderly_frees n s x Fu F N0 S Ru). split; [eapply fine_step; eassumption|]. split; [eapply shutting_step; [apply F|exact S|exact Sm]|].
  split; [eapply full_step; eassumption|]. split.
  - rewrite (name_step n x n' H). destruct (gives n x); [|exact N0]. assert (L5 := n_five _ (proj1 (proj2 (proj1 Fu)))). rewrite upd_neq by lia. exact N0.
  - exists (ys ++ [nameless x]). split; [eapply fbehaved_snoc; eassumption|eapply frun_snoc; eassumption].
Qed.
Lemma orderly_inv n : orderly n -> Orderly n.
Proof.
  assert (X : forall xs n n', Orderly n -> all_along (both nbehaved (reuses mailbox_closed)) n xs -> nrun n xs = Some n' -> Orderly n').
  { induction xs as [|x xs IH]; intros m m' O W H; simpl in *; [injection H as <-; exact O|]. destruct W as [[W1 W1'] W2]. destruct (nstep m x) as [m1|] eqn:E; [|discriminate].
    apply (IH m1); auto. now apply (orderly_one m x). }
  intros (xs & W & H). eapply X; [|exact W|exact H]. split; [apply fine_init|]. split; [intros a []|]. split; [apply fwell_full; exists []; split; [exact I|reflexivity]|].
  split; [reflexivity|]. exists []. split; [exact I|reflexivity].
Qed.

(* the actors by themselves create nothing *)
Lemma own_free n x : nown x = true -> nbehaved n x /\ reuses mailbox_closed n x /\ own (nameless x) = true /\ (forall y, x = Act y -> creates y = false).
Proof. destruct x as [[a [|]|a|y]|g nm|p nm]; try discriminate; intros _; simpl; repeat split; auto; intros y E; injection E as <-; reflexivity. Qed.
Lemma orderly_run xs : forall n n', Orderly n -> forallb nown xs = true -> nrun n xs = Some n' ->
  Orderly n' /\ frun (flow n) (map nameless xs) = Some (flow n') /\ forallb own (map nameless xs) = true.
Proof.
  induction xs as [|x xs IH]; intros n n' O F H; simpl in *; [injection H as <-; auto|]. apply andb_true_iff in F. destruct F as [F1 F2].
  destruct (own_free n x F1) as (B1 & B2 & B3 & _). destruct (nstep n x) as [n1|] eqn:E; [|discriminate]. destruct (orderly_one n x n1 O B1 B2 E) as [O1 S1]. rewrite S1, B3. simpl. now apply IH.
Qed.
Lemma orderly_quiet n : Fine n -> nquiet n -> fquiet (flow n).
Proof.
  intros F Q y Oy. assert (Cr : creates y = false) by (destruct y; try reflexivity; discriminate Oy).
  assert (Sm := step_same n (Act y) F). rewrite (Q (Act y) Oy) in Sm. apply Sm. intros z E. injection E as <-. exact Cr.
Qed.
Lemma quiet_back n : Fine n -> fquiet (flow n) -> nquiet n.
Proof.
  intros F Q x Ox. destruct (own_free n x Ox) as (_ & _ & B3 & Cr). assert (Sm := step_same n x F Cr). rewrite (Q _ B3) in Sm. destruct (nstep n x); [discriminate|reflexivity].
Qed.
Lemma orderly_back xs : forall n f', Orderly n -> forallb own xs = true -> frun (flow n) xs = Some f' ->
  exists n', forallb nown (map Act xs) = true /\ nrun n (map Act xs) = Some n' /\ flow n' = f' /\ Orderly n'.
Proof.
  induction xs as [|y xs IH]; intros n f' O F H; cbn [map forallb nrun frun] in *; [injection H as <-; exists n; auto|]. apply andb_true_iff in F. destruct F as [F1 F2].
  assert (Ny : nown (Act y) = true) by exact F1. destruct (own_free n _ Ny) as (B1 & B2 & B3 & Cr). assert (Sm := step_same n (Act y) (proj1 O) Cr).
  destruct (nstep n (Act y)) as [n1|] eqn:E; cbn [nameless] in Sm; rewrite Sm in H; [|discriminate].
  destruct (orderly_one n (Act y) n1 O B1 B2 E) as [O1 _]. destruct (IH n1 f' O1 F2 H) as (n' & X1 & X2 & X3 & X4). exists n'. split; [apply andb_true_iff; split; [exact F1|exact X1]|]. auto.
Qed.

(* who is destroyed has run post_stop, in every careful execution *)
Lemma fine_dead_stopped n a : Fine n -> Orderly n -> dead n a = true -> stopped (nd (base (flow n)) a) = true.
Proof.
  intros F (_ & _ & (s & Fu) & _) Dd. assert (X := fine_dead n a F Dd). destruct (f_buried n F a Dd) as (A & L & N).
  destruct X as [X|[X _]]; [destruct Fu as (_ & _ & K); apply K; left; rewrite X; simpl; auto|].
  eapply full_stopped; [exact Fu|now right|]. destruct Fu as ((R & _) & _). rewrite (r_opn _ _ _ R a), X. reflexivity.
Qed.

(* ---- watching ---- *)
Lemma find_none nm p l : find_ref nm p l = None <-> forall w, In w l -> nm w <> p.
Proof.
  induction l as [|y l IH]; simpl; [split; [intros _ w []|auto]|]. destruct (same_path (nm y) p) eqn:P.
  - apply same_path_spec in P. split; [discriminate|]. intros H. now apply (H y) in P; [|left].
  - rewrite IH. split; [intros H w [->|I]; [|now apply H]|intros H w I; apply H; now right]. intros E. apply same_path_spec in E. congruence.
Qed.
Definition has (nm : nat -> path) (p : path) (l : list nat) : bool := match find_ref nm p l with Some _ => true | None => false end.
Definition Distinct (nm : nat -> path) (l : list nat) : Prop := NoDup (map nm l).
Lemma has_spec nm p l : has nm p l = true <-> In p (map nm l).
Proof.
  unfold has. rewrite in_map_iff. destruct (find_ref nm p l) eqn:E.
  - split; [intros _|auto]. induction l as [|y l IH]; simpl in E; [discriminate|]. destruct (same_path (nm y) p) eqn:P; [apply same_path_spec in P; exists y; simpl; auto|].
    destruct (IH E) as (x & X1 & X2). exists x. simpl. auto.
  - split; [discriminate|]. intros (x & X1 & X2). apply find_none with (w := x) in E; [contradiction|exact X2].
Qed.
Lemma remove_ref_in nm p l w : In w (remove_ref nm p l) -> In w l.
Proof. induction l as [|y l IH]; simpl; [auto|]. destruct (same_path _ _); [auto|]. intros [->|H]; auto. Qed.
Lemma remove_ref_other nm p l w : In w l -> nm w <> p -> In w (remove_ref nm p l).
Proof.
  induction l as [|y l IH]; simpl; [auto|]. intros I N. destruct (same_path (nm y) p) eqn:P.
  - apply same_path_spec in P. destruct I as [->|I]; [contradiction|exact I].
  - destruct I as [->|I]; simpl; auto.
Qed.
Lemma remove_ref_distinct nm p l : Distinct nm l -> Distinct nm (remove_ref nm p l) /\ forall w, In w (remove_ref nm p l) -> nm w <> p.
Proof.
  unfold Distinct. induction l as [|y l IH]; simpl; intros H; [split; [constructor|intros w []]|]. inversion H as [|? ? N D]; subst. destruct (same_path (nm y) p) eqn:P.
  - apply same_path_spec in P. split; [exact D|]. intros w I E. apply N. rewrite P, <- E. now apply in_map.
  - destruct (IH D) as [I1 I2]. split.
    + simpl. constructor; [|exact I1]. intros X. apply in_map_iff in X. destruct X as (w & X & Y). apply remove_ref_in in Y. apply N. rewrite <- X. now apply in_map.
    + intros w [->|I]; [|now apply I2]. intros E. apply same_path_spec in E. congruence.
Qed.
Lemma serve_distinct nm l r : Distinct nm l -> Distinct nm (serve nm l r).
Proof.
  intros D. destruct r as [w|w]; simpl; [|now apply remove_ref_distinct]. unfold watch. destruct (find_ref nm (nm w) l) eqn:E; [exact D|]. unfold Distinct in *. rewrite map_app. simpl.
  assert (X := proj1 (find_none nm (nm w) l) E). apply NoDup_rev in D. rewrite <- (rev_involutive (map nm l ++ [nm w])). apply NoDup_rev. rewrite rev_app_distr. simpl. constructor; [|exact D].
  intros I. apply in_rev, in_map_iff in I. destruct I as (x & I1 & I2). now apply (X x).
Qed.
Lemma serve_has nm l r p : Distinct nm l -> has nm p (serve nm l r) = if same_path (nm (asker r)) p then match r with Watch _ => true | Unwatch _ => false end else has nm p l.
Proof.
  intros D. apply Bool.eq_iff_eq_true. rewrite has_spec. destruct (same_path (nm (asker r)) p) eqn:P.
  - apply same_path_spec in P. destruct r as [w|w]; simpl in *; subst p.
    + split; [auto|]. intros _. unfold watch. destruct (find_ref nm (nm w) l) eqn:E; [|rewrite map_app; apply in_or_app; right; now left].
      apply has_spec. unfold has. now rewrite E.
    + split; [|discriminate]. intros I. apply in_map_iff in I. destruct I as (x & I1 & I2). destruct (remove_ref_distinct nm (nm w) l D) as [_ N]. now apply N in I2.
  - rewrite has_spec. assert (N : nm (asker r) <> p) by (intros E; apply same_path_spec in E; congruence). destruct r as [w|w]; simpl in *.
    + unfold watch. destruct (find_ref nm (nm w) l); [tauto|]. rewrite map_app, in_app_iff. simpl. tauto.
    + unfold unwatch. rewrite !in_map_iff. split; intros (x & I1 & I2); exists x; (split; [exact I1|]); [eapply remove_ref_in, I2|]. apply remove_ref_other; [exact I2|]. congruence.
Qed.
Lemma served nm rs : forall l, Distinct nm l -> Distinct nm (fold_left (serve nm) rs l) /\ forall p, has nm p (fold_left (serve nm) rs l) = wants nm p rs (has nm p l).
Proof.
  induction rs as [|r rs IH]; intros l D; simpl; [auto|]. destruct (IH (serve nm l r) (serve_distinct nm l r D)) as [I1 I2]. split; [exact I1|]. intros p. rewrite I2, serve_has by exact D. reflexivity.
Qed.
Lemma told_paths nm rs : NoDup (map nm (told_of nm rs)) /\ forall p, In p (map nm (told_of nm rs)) <-> wants nm p rs false = true.
Proof. destruct (served nm rs [] ltac:(constructor)) as [I1 I2]. split; [exact I1|]. intros p. rewrite <- has_spec. unfold told_of. rewrite I2. reflexivity. Qed.
Lemma served_asked nm rs : forall l w, In w (fold_left (serve nm) rs l) -> In w l \/ In (Watch w) rs.
Proof.
  induction rs as [|r rs IH]; intros l w H; simpl in *; [auto|]. apply IH in H. destruct H as [H|H]; [|auto]. destruct r as [x|x]; simpl in H.
  - unfold watch in H. destruct (find_ref nm (nm x) l); [auto|]. apply in_app_or in H. destruct H as [H|[->|[]]]; auto.
  - left. eapply remove_ref_in, H.
Qed.
Lemma wants_last nm p rs : forall now, wants nm p rs now = true <->
  (exists l1 l2 w, rs = l1 ++ Watch w :: l2 /\ nm w = p /\ forall r, In r l2 -> nm (asker r) <> p) \/ (now = true /\ forall r, In r rs -> nm (asker r) <> p).
Proof.
  induction rs as [|r rs IH]; intros now; simpl.
  - split; [intros H; right; split; [exact H|intros r []]|]. intros [(l1 & l2 & w & E & _)|[H _]]; [destruct l1; discriminate|exact H].
  - rewrite IH. destruct (same_path (nm (asker r)) p) eqn:P.
    + apply same_path_spec in P. split.
      * intros [(l1 & l2 & w & -> & X)|[H N]]; [left; exists (r :: l1), l2, w; auto|]. destruct r as [w|w]; [|discriminate]. left. exists [], rs, w. auto.
      * intros [(l1 & l2 & w & E & X & N)|[_ N]]; [|destruct (N r (or_introl eq_refl) P)]. destruct l1 as [|r' l1]; simpl in E; injection E as -> ->; [right; auto|]. left. exists l1, l2, w. auto.
    + assert (Np : nm (asker r) <> p) by (intros E; apply same_path_spec in E; congruence). split.
      * intros [(l1 & l2 & w & -> & X)|[H N]]; [left; exists (r :: l1), l2, w; auto|]. right. split; [exact H|]. intros r' [<-|I]; auto.
      * intros [(l1 & l2 & w & E & X & N)|[H N]]; [|right; split; [exact H|]; intros r' I; apply N; now right]. destruct l1 as [|r' l1]; simpl in E; injection E as -> ->; [contradiction|]. left. exists l1, l2, w. auto.
Qed.
Lemma told_exactly nm rs : (forall r r', In r rs -> In r' rs -> nm (asker r) = nm (asker r') -> asker r = asker r') ->
  NoDup (told_of nm rs) /\ forall w, In w (told_of nm rs) <-> last_watches w rs.
Proof.
  intros U. destruct (told_paths nm rs) as [D P]. split; [eapply NoDup_map_inv, D|]. intros w. split.
  - intros I. assert (A := served_asked nm rs [] w I). destruct A as [[]|A]. assert (Q := proj1 (P (nm w)) (in_map nm _ _ I)). apply wants_last in Q. destruct Q as [(l1 & l2 & v & E & X & N)|[Q _]]; [|discriminate].
    assert (v = w). { apply (U (Watch v) (Watch w)); [rewrite E; apply in_or_app; right; now left|exact A|exact X]. } subst v. exists l1, l2. split; [exact E|]. intros r Ir Er. apply (N r Ir). now rewrite Er.
  - intros (l1 & l2 & E & N). assert (A : In (Watch w) rs) by (rewrite E; apply in_or_app; right; now left).
    assert (Q : wants nm (nm w) rs false = true).
    { apply wants_last. left. exists l1, l2, w. split; [exact E|]. split; [reflexivity|]. intros r Ir Er. apply (N r Ir). apply (U r (Watch w)); [rewrite E; apply in_or_app; right; now right|exact A|exact Er]. }
    apply P, in_map_iff in Q. destruct Q as (v & Q1 & Q2). assert (B := served_asked nm rs [] v Q2). destruct B as [[]|B]. assert (v = w) by (apply (U (Watch v) (Watch w)); auto). now subst v.
Qed.
