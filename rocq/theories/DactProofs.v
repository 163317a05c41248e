(* Lemmas for C101. *)
From Coq Require Import List Bool Arith Lia Permutation.
From Verif Require Import MailboxModel MailboxProofs.
From Verif Require Import TreeModel TreeProofs TreeRegime FlowModel FlowProofs FlowSim DactModel.
Import ListNotations.

(* ---- one mailbox ---- *)
Section Box.
Variable A : Type.
Variable tp : nat.
Notation drun := (DactModel.drun A tp).
Notation dstep := (DactModel.dstep A tp).
Notation mrun := (MailboxModel.run A tp).

Lemma drop_nth_length {B} (l : list B) : forall i x, nth_error l i = Some x -> length l = S (length (drop_nth i l)).
Proof. induction l as [|y l IH]; intros [|i] x H; simpl in *; try discriminate; auto. erewrite IH by exact H. reflexivity. Qed.

Lemma enqueue_pending k (m : msg A) b : MailboxModel.pending (enqueue A k m b) = (if is_open b && negb (scheduled b) then S (MailboxModel.pending b) else MailboxModel.pending b).
Proof. unfold enqueue. destruct (is_open b), k, (scheduled b); reflexivity. Qed.
Lemma executor_pending x b b' : from_executor A x = true -> MailboxModel.step A tp b x = Some b' -> MailboxModel.pending b' = MailboxModel.pending b.
Proof.
  intros F H. destruct x; try discriminate F; simpl in H.
  - destruct (queued b); [discriminate|]. injection H as <-. reflexivity.
  - destruct (MailboxModel.get_pc A (acts b) a) as [[c|m c|m c| |]|]; try discriminate. injection H as <-.
    unfold pop. destruct (sys b); [|reflexivity]. destruct (MailboxModel.started b); [|reflexivity]. destruct (usr b); reflexivity.
  - destruct (MailboxModel.get_pc A (acts b) a) as [[c|m c|m c| |]|]; try discriminate. injection H as <-. reflexivity.
  - destruct (MailboxModel.get_pc A (acts b) a) as [[c|m c|m c| |]|]; try discriminate. injection H as <-. reflexivity.
  - destruct (MailboxModel.get_pc A (acts b) a) as [[c|m c|m c| |]|]; try discriminate. injection H as <-.
    unfold schedule. destruct (_ || _); [|reflexivity]. destruct (has_work _ _); reflexivity.
  - destruct (MailboxModel.get_pc A (acts b) a) as [[c|m c|m c| |]|]; try discriminate. injection H as <-. reflexivity.
Qed.
Lemma schedule_pending r (b : MailboxModel.state A) : MailboxModel.pending (schedule A r b) = MailboxModel.pending b.
Proof. unfold schedule. destruct (_ || _); [|reflexivity]. destruct (has_work _ _); reflexivity. Qed.

Definition counted (d : dbox A) : Prop := MailboxModel.pending (box d) = length (waiters d).

Lemma dstep_release d x d' : dstep d x = Next d' -> counted d -> MailboxModel.step A tp (box d) (released A x) = Some (box d') /\ counted d'.
Proof.
  unfold counted. intros H C. destruct x as [ck k m|i|y]; cbn [DactModel.dstep] in H.
  - destruct (ck && _); [discriminate|]. injection H as <-. cbn [released MailboxModel.step box waiters]. split; [reflexivity|].
    rewrite enqueue_pending. destruct (_ && _); rewrite C; [rewrite app_length; simpl; lia|reflexivity].
  - cbn [released]. destruct (nth_error (waiters d) i) as [ck|] eqn:N; [|discriminate].
    destruct (MailboxModel.step A tp (box d) SenderSchedules) as [b|] eqn:E; [|discriminate].
    destruct (ck && _); [discriminate|]. injection H as <-. cbn [box waiters]. split; [reflexivity|].
    apply drop_nth_length in N. cbn [MailboxModel.step] in E. destruct (MailboxModel.pending (box d)) as [|p] eqn:P; [discriminate|]. injection E as <-.
    rewrite schedule_pending. cbn [MailboxModel.pending]. lia.
  - destruct (from_executor A y) eqn:F; [|discriminate]. cbn [released]. destruct (MailboxModel.step A tp (box d) y) as [b|] eqn:E; [|discriminate].
    injection H as <-. cbn [box waiters]. split; [reflexivity|]. rewrite (executor_pending _ _ _ F E). exact C.
Qed.
Lemma drun_release xs : forall d d', drun d xs = Next d' -> counted d -> mrun (box d) (map (released A) xs) = Some (box d') /\ counted d'.
Proof.
  induction xs as [|x xs IH]; intros d d' H C.
  - injection H as <-. split; [reflexivity|exact C].
  - cbn [DactModel.drun] in H. destruct (dstep d x) as [d1| |] eqn:E; try discriminate. destruct (dstep_release _ _ _ E C) as (S1 & C1).
    cbn [map MailboxModel.run]. rewrite S1. now apply IH.
Qed.
Lemma dreach xs d : drun (dinit A) xs = Next d -> MailboxModel.reachable A tp (box d) /\ counted d.
Proof. intros H. destruct (drun_release _ _ _ H eq_refl) as (R & C). split; [eexists; exact R|exact C]. Qed.

(* a release run is a debug run, as far as that gets *)
Lemma dstep_covers d y b' : counted d -> MailboxModel.step A tp (box d) y = Some b' ->
  exists x, released A x = y /\ (forall ck k m, x = DSend ck k m -> ck = false) /\ (dstep d x = Abort NotScheduled \/ exists d', dstep d x = Next d' /\ box d' = b').
Proof.
  unfold counted. intros C H. destruct y as [k m| | | | | | | ].
  1: { exists (DSend false k m). split; [reflexivity|]. split; [intros; congruence|]. right. cbn [DactModel.dstep andb]. eexists. split; [reflexivity|]. cbn in H. now injection H as <-. }
  1: { exists (DSchedule 0). split; [reflexivity|]. split; [discriminate|]. cbn [DactModel.dstep]. rewrite H.
       destruct (waiters d) as [|w ws]; [cbn in H; rewrite C in H; discriminate|]. cbn [nth_error]. destruct (w && _); [now left|]. right. eexists. split; reflexivity. }
  all: match goal with |- exists x, released A x = ?y /\ _ => exists (DStep y) end; split; [reflexivity|]; split; [discriminate|]; right;
    cbn [DactModel.dstep from_executor]; rewrite H; eexists; split; reflexivity.
Qed.

(* when the assertion fails *)
Lemma has_work_none (b : MailboxModel.state A) : has_work A b = false <-> sys b = [] /\ (usr b = [] \/ MailboxModel.started b = false \/ is_open b = false).
Proof.
  unfold has_work. destruct (MailboxModel.started b), (usr b), (sys b), (is_open b); simpl; split; try discriminate; auto; intros (X & [Y|[Y|Y]]); discriminate.
Qed.
Lemma schedule_fails (b : MailboxModel.state A) : scheduled (schedule A false b) = false <-> scheduled b = false /\ has_work A b = false.
Proof.
  unfold schedule. destruct (scheduled b) eqn:S; simpl; [rewrite S; split; [discriminate|tauto]|]. destruct (has_work A b); simpl; split; try discriminate; tauto.
Qed.
Lemma abort_exactly xs d i : drun (dinit A) xs = Next d ->
  (dstep d (DSchedule i) = Abort NotScheduled <->
   nth_error (waiters d) i = Some true /\ scheduled (box d) = false /\ sys (box d) = [] /\
   (usr (box d) = [] \/ MailboxModel.started (box d) = false \/ is_open (box d) = false)).
Proof.
  intros H. destruct (dreach _ _ H) as (R & C). unfold counted in C. cbn [DactModel.dstep].
  destruct (nth_error (waiters d) i) as [ck|] eqn:N; [|split; [discriminate|intros (X & _); discriminate]].
  assert (L := drop_nth_length _ _ _ N). cbn [MailboxModel.step]. destruct (MailboxModel.pending (box d)) as [|p] eqn:P; [lia|].
  set (b := MailboxModel.State _ _ _ _ _ _ _ _ _ _ _).
  assert (F := schedule_fails b). assert (W := has_work_none b).
  change (scheduled b) with (scheduled (box d)) in *. change (sys b) with (sys (box d)) in *. change (usr b) with (usr (box d)) in *.
  change (MailboxModel.started b) with (MailboxModel.started (box d)) in *. change (is_open b) with (is_open (box d)) in *.
  destruct ck; [|split; [discriminate|intros (X & _); discriminate]]. destruct (scheduled (schedule A false b)); simpl.
  - split; [discriminate|]. intros (_ & S1 & S2). assert (true = false) by (apply F; tauto). discriminate.
  - split; [|reflexivity]. intros _. split; [reflexivity|]. destruct F as [F _]. specialize (F eq_refl). tauto.
Qed.
Lemma abort_is_schedule d x w : dstep d x = Abort w -> w = NotScheduled /\ exists i, x = DSchedule i.
Proof.
  destruct x as [ck k m|i|y]; cbn [DactModel.dstep].
  - destruct (ck && _); discriminate.
  - destruct (nth_error _ _); [|discriminate]. destruct (MailboxModel.step _ _ _ _); [|discriminate]. destruct (_ && _); [|discriminate]. intros H. injection H as <-. split; [reflexivity|eauto].
  - destruct (from_executor A y); [|discriminate]. destruct (MailboxModel.step _ _ _ _); discriminate.
Qed.

(* one sender at a time *)
Definition alone (d : dbox A) : Prop := forall w, waiters d = [w] -> scheduled (box d) = false /\ (w = true -> sys (box d) <> []).
Lemma alone_step d x d' : MailboxModel.reachable A tp (box d) -> counted d -> length (waiters d) <= 1 -> length (waiters d') <= 1 -> alone d -> dstep d x = Next d' -> alone d'.
Proof.
  unfold alone. intros R C L L' Al H w W. destruct x as [ck k m|i|y]; cbn [DactModel.dstep] in H.
  - destruct (ck && _) eqn:K; [discriminate|]. injection H as <-. cbn [box waiters] in *.
    destruct (is_open (box d) && negb (scheduled (box d))) eqn:N.
    + apply andb_true_iff in N. destruct N as [N1 N2]. apply negb_true_iff in N2.
      destruct (waiters d) as [|v vs]; [|rewrite app_length in L'; simpl in L'; lia]. simpl in W. injection W as <-.
      unfold enqueue. rewrite N1. destruct k; simpl; split; auto; intros ->; [discriminate K|]. destruct (sys (box d)); discriminate.
    + destruct (Al w W) as (S1 & S2). rewrite S1, andb_true_r in N. unfold enqueue. rewrite N. simpl. auto.
  - destruct (nth_error (waiters d) i) as [ck|] eqn:N; [|discriminate].
    destruct (MailboxModel.step A tp (box d) SenderSchedules) as [b|]; [|discriminate]. destruct (_ && _); [discriminate|]. injection H as <-. cbn [waiters] in W.
    apply drop_nth_length in N. rewrite W in N. simpl in N. lia.
  - destruct (from_executor A y) eqn:F; [|discriminate]. destruct (MailboxModel.step A tp (box d) y) as [b|] eqn:E; [|discriminate]. injection H as <-. cbn [box waiters] in *.
    destruct (Al w W) as (S1 & S2). destruct (no_task_when_unscheduled _ _ _ R S1) as (Q & Ac).
    destruct y; try discriminate F; simpl in E; rewrite ?Q, ?Ac in E; discriminate.
Qed.
Lemma alone_run xs : forall d, MailboxModel.reachable A tp (box d) -> counted d -> length (waiters d) <= 1 -> alone d ->
  (forall ys d1, (exists zs, xs = ys ++ zs) -> drun d ys = Next d1 -> length (waiters d1) <= 1) -> forall w, drun d xs <> Abort w.
Proof.
  induction xs as [|x xs IH]; intros d R C L Al One w H; [discriminate|].
  cbn [DactModel.drun] in H. destruct (dstep d x) as [d1|w1|] eqn:E; [|clear H|discriminate].
  - destruct (dstep_release _ _ _ E C) as (S1 & C1).
    assert (R1 : MailboxModel.reachable A tp (box d1)) by (eapply (reachable_run A tp (box d) [released A x]); [exact R|]; cbn [MailboxModel.run]; now rewrite S1).
    assert (L1 : length (waiters d1) <= 1) by (apply (One [x]); [exists xs; reflexivity|]; cbn [DactModel.drun]; now rewrite E).
    refine (IH d1 R1 C1 L1 (alone_step _ _ _ R C L L1 Al E) _ w H). intros ys d2 (zs & ->) H2. apply (One (x :: ys)); [exists zs; reflexivity|]. cbn [DactModel.drun]. now rewrite E.
  - destruct (abort_is_schedule _ _ _ E) as (-> & i & ->). cbn [DactModel.dstep] in E.
    destruct (nth_error (waiters d) i) as [ck|] eqn:N; [|discriminate]. destruct (waiters d) as [|v [|v2 vs]] eqn:W; [destruct i; discriminate| |simpl in L; lia].
    destruct i as [|[|i]]; try discriminate. injection N as ->. destruct (Al _ W) as (S1 & S2). unfold counted in C. rewrite W in C.
    cbn [MailboxModel.step] in E. rewrite C in E. simpl length in E. cbv iota in E.
    match type of E with context[schedule A false ?bb] => set (b := bb) in *; assert (F := schedule_fails b); assert (Wk := has_work_none b) end.
    change (sys b) with (sys (box d)) in Wk. destruct ck; [|discriminate]. specialize (S2 eq_refl). destruct (scheduled (schedule A false b)); [discriminate|].
    destruct F as [F _]. specialize (F eq_refl). tauto.
Qed.
Lemma alone_init : alone (dinit A).
Proof. intros w H. discriminate. Qed.
Lemma one_at_a_time xs w : drun (dinit A) xs = Abort w -> exists ys zs d, xs = ys ++ zs /\ drun (dinit A) ys = Next d /\ length (waiters d) >= 2.
Proof.
  intros H.
  assert (D : forall l : list (dsend A), (exists ys zs d, l = ys ++ zs /\ drun (dinit A) ys = Next d /\ length (waiters d) >= 2) \/
     (forall ys d1, (exists zs, l = ys ++ zs) -> drun (dinit A) ys = Next d1 -> length (waiters d1) <= 1)).
  { intros l. induction l as [|x l IH] using rev_ind.
    - right. intros ys d1 (zs & E) H1. destruct ys; [|discriminate]. injection H1 as <-. simpl. lia.
    - destruct IH as [(ys & zs & d & E & X)|IH]; [left; exists ys, (zs ++ [x]), d; split; [rewrite E, app_assoc; reflexivity|exact X]|].
      destruct (drun (dinit A) (l ++ [x])) as [d| |] eqn:E.
      + destruct (le_lt_dec (length (waiters d)) 1) as [K|K]; [|left; exists (l ++ [x]), [], d; split; [now rewrite app_nil_r|split; [exact E|lia]]].
        right. intros ys d1 (zs & Ez) H1. destruct zs as [|z zs] using rev_ind.
        * rewrite app_nil_r in Ez. subst ys. rewrite E in H1. injection H1 as <-. exact K.
        * clear IHzs. rewrite app_assoc in Ez. apply app_inj_tail in Ez. destruct Ez as (-> & _). eapply IH; [eauto|exact H1].
      + right. intros ys d1 (zs & Ez) H1. destruct zs as [|z zs] using rev_ind.
        * rewrite app_nil_r in Ez. subst ys. rewrite E in H1. discriminate.
        * clear IHzs. rewrite app_assoc in Ez. apply app_inj_tail in Ez. destruct Ez as (-> & _). eapply IH; [eauto|exact H1].
      + right. intros ys d1 (zs & Ez) H1. destruct zs as [|z zs] using rev_ind.
        * rewrite app_nil_r in Ez. subst ys. rewrite E in H1. discriminate.
        * clear IHzs. rewrite app_assoc in Ez. apply app_inj_tail in Ez. destruct Ez as (-> & _). eapply IH; [eauto|exact H1]. }
  destruct (D xs) as [X|X]; [exact X|]. exfalso. refine (alone_run xs (dinit A) _ _ _ alone_init X w H); [exists []; reflexivity|reflexivity|simpl; lia].
Qed.
End Box.

(* ---- the tree: one attach_child and one detach_child for each actor ---- *)
Definition dets (l : list smsg) : list nat := flat_map (fun m => match m with SDetach c => [c] | _ => [] end) l.
Definition atts (l : list smsg) : list nat := flat_map (fun m => match m with SAttach c => [c] | _ => [] end) l.
Definition adds (l : list umsg) : list nat := flat_map (fun m => match m with UAdd _ c => [c] | _ => [] end) l.
Definition D (s : state) (a : nat) : list nat := dets (sysq (nd s a)).
Definition T (s : state) (a : nat) : list nat := atts (sysq (nd s a)).
Definition U (s : state) : list nat := adds (usrq (nd s 0)).

Record Once (s : state) : Prop := {
  k_det : forall a, opn (nd s a) = true -> NoDup (D s a);
  k_det_in : forall a c, opn (nd s a) = true -> In c (D s a) ->
    att (nd s c) = true /\ par (nd s c) = a /\ In c (kids (nd s a)) /\ opn (nd s c) = false;
  k_att : forall a, opn (nd s a) = true -> NoDup (T s a);
  k_att_in : forall a c, opn (nd s a) = true -> In c (T s a) -> att (nd s c) = false;
  k_att_one : forall a b c, opn (nd s a) = true -> opn (nd s b) = true -> In c (T s a) -> In c (T s b) -> a = b;
  k_add : opn (nd s 0) = true -> NoDup (U s);
  k_add_in : forall c, opn (nd s 0) = true -> In c (U s) -> att (nd s c) = false;
  k_add_one : forall a c, opn (nd s 0) = true -> opn (nd s a) = true -> In c (U s) -> In c (T s a) -> False
}.

Definition sub (l' l : list nat) : Prop := (NoDup l -> NoDup l') /\ incl l' l.
Lemma sub_refl l : sub l l.
Proof. split; [auto|apply incl_refl]. Qed.
Lemma sub_tl (l : list nat) : sub (tl l) l.
Proof. split; [|intros x; apply tl_in]. intros H. destruct H; [constructor|assumption]. Qed.
Lemma sub_nil l : sub [] l.
Proof. split; [constructor|intros x []]. Qed.

Lemma once_mono s s' : Once s ->
  (forall b, opn (nd s' b) = true -> opn (nd s b) = true) ->
  (forall b, opn (nd s b) = false -> opn (nd s' b) = false) ->
  (forall b, att (nd s' b) = att (nd s b)) -> (forall b, par (nd s' b) = par (nd s b)) ->
  (forall b, opn (nd s' b) = true -> kids (nd s' b) = kids (nd s b) /\ sub (D s' b) (D s b) /\ sub (T s' b) (T s b)) ->
  (opn (nd s' 0) = true -> sub (U s') (U s)) -> Once s'.
Proof.
  intros [K1 K2 K3 K4 K5 K6 K7 K8] Ho Hc Ha Hp Hk Hu. constructor.
  - intros a O. apply (Hk a O), K1, Ho, O.
  - intros a c O I. destruct (Hk a O) as (E & (_ & X) & _). apply X in I. destruct (K2 a c (Ho a O) I) as (A1 & A2 & A3 & A4).
    rewrite Ha, Hp, E. repeat split; auto.
  - intros a O. apply (Hk a O), K3, Ho, O.
  - intros a c O I. destruct (Hk a O) as (_ & _ & (_ & X)). rewrite Ha. eapply K4; [apply Ho, O|apply X, I].
  - intros a b c O O' I I'. destruct (Hk a O) as (_ & _ & (_ & X)), (Hk b O') as (_ & _ & (_ & X')). eapply (K5 a b c); auto.
  - intros O. apply (Hu O), K6, Ho, O.
  - intros c O I. rewrite Ha. apply K7; [apply Ho, O|]. now apply (Hu O).
  - intros a c O O' I I'. destruct (Hk a O') as (_ & _ & (_ & X)). eapply (K8 a c); auto. now apply (Hu O).
Qed.
Ltac same := intros; unfold D, T, U in *; simpl in *; unfold upd in *;
  repeat match goal with
  | |- context[?b =? ?a] => destruct (Nat.eqb_spec b a); subst; simpl in *
  | H : context[?b =? ?a] |- _ => destruct (Nat.eqb_spec b a); subst; simpl in *
  end; auto using sub_refl.

Lemma dets_app l m : dets (l ++ m) = dets l ++ dets m. Proof. apply flat_map_app. Qed.
Lemma atts_app l m : atts (l ++ m) = atts l ++ atts m. Proof. apply flat_map_app. Qed.
Lemma adds_app l m : adds (l ++ m) = adds l ++ adds m. Proof. apply flat_map_app. Qed.

(* pushes *)
Lemma push_sys_same s b m d : att (nd (push_sys s b m) d) = att (nd s d) /\ par (nd (push_sys s b m) d) = par (nd s d) /\ kids (nd (push_sys s b m) d) = kids (nd s d) /\ opn (nd (push_sys s b m) d) = opn (nd s d).
Proof. unfold push_sys. destruct (opn (nd s b)) eqn:O; [|auto]. simpl. unfold upd. destruct (Nat.eqb_spec d b); subst; simpl; auto. Qed.
Lemma push_usr_same s b m d : att (nd (push_usr s b m) d) = att (nd s d) /\ par (nd (push_usr s b m) d) = par (nd s d) /\ kids (nd (push_usr s b m) d) = kids (nd s d) /\ opn (nd (push_usr s b m) d) = opn (nd s d).
Proof. unfold push_usr. destruct (opn (nd s b)) eqn:O; [|auto]. simpl. unfold upd. destruct (Nat.eqb_spec d b); subst; simpl; auto. Qed.
Lemma push_sys_D s b m d : D (push_sys s b m) d = if (d =? b) && opn (nd s b) then D s d ++ dets [m] else D s d.
Proof. unfold D, push_sys. destruct (opn (nd s b)); [|now rewrite andb_false_r]. simpl. unfold upd. destruct (Nat.eqb_spec d b); subst; simpl; auto. now rewrite dets_app. Qed.
Lemma push_sys_T s b m d : T (push_sys s b m) d = if (d =? b) && opn (nd s b) then T s d ++ atts [m] else T s d.
Proof. unfold T, push_sys. destruct (opn (nd s b)); [|now rewrite andb_false_r]. simpl. unfold upd. destruct (Nat.eqb_spec d b); subst; simpl; auto. now rewrite atts_app. Qed.
Lemma push_sys_U s b m : U (push_sys s b m) = U s.
Proof. unfold U. now rewrite push_sys_usrq. Qed.
Lemma push_usr_D s b m d : D (push_usr s b m) d = D s d.
Proof. unfold D. now rewrite push_usr_sysq. Qed.
Lemma push_usr_T s b m d : T (push_usr s b m) d = T s d.
Proof. unfold T. now rewrite push_usr_sysq. Qed.
Lemma push_usr_U s b m : U (push_usr s b m) = if (0 =? b) && opn (nd s b) then U s ++ adds [m] else U s.
Proof. unfold U, push_usr. destruct (opn (nd s b)); [|now rewrite andb_false_r]. simpl nd. unfold upd. destruct (Nat.eqb_spec 0 b); subst; simpl; auto. now rewrite adds_app. Qed.

Lemma once_push_sys s b m : Once s -> match m with SAttach _ | SDetach _ => False | _ => True end -> Once (push_sys s b m).
Proof.
  intros K M. assert (P := push_sys_same s b m). assert (X : dets [m] = [] /\ atts [m] = []) by (destruct m; tauto). destruct X as (X1 & X2).
  apply (once_mono s); auto; intros; try (destruct (P b0) as (P1 & P2 & P3 & P4); congruence).
  - destruct (P b0) as (P1 & P2 & P3 & P4). rewrite push_sys_D, push_sys_T, X1, X2, !app_nil_r. destruct (_ && _); auto using sub_refl.
  - rewrite push_sys_U. apply sub_refl.
Qed.
Lemma once_push_usr s b m : Once s -> match m with UAdd _ _ => False | _ => True end -> Once (push_usr s b m).
Proof.
  intros K M. assert (P := push_usr_same s b m). assert (X : adds [m] = []) by (destruct m; tauto).
  apply (once_mono s); auto; intros; try (destruct (P b0) as (P1 & P2 & P3 & P4); congruence).
  - destruct (P b0) as (P1 & P2 & P3 & P4). rewrite push_usr_D, push_usr_T. auto using sub_refl.
  - rewrite push_usr_U, X, app_nil_r. destruct (_ && _); apply sub_refl.
Qed.
Lemma nodup_snoc (l : list nat) c : NoDup l -> ~ In c l -> NoDup (l ++ [c]).
Proof. intros H N. apply NoDup_app_comm_nat. simpl. now constructor. Qed.
Lemma in_snoc (l : list nat) c x : In x (l ++ [c]) -> In x l \/ x = c.
Proof. intros H. apply in_app_or in H. simpl in H. intuition. Qed.

Lemma once_push_detach s p a : Once s -> att (nd s a) = true -> par (nd s a) = p -> In a (kids (nd s p)) -> opn (nd s a) = false ->
  (opn (nd s p) = true -> ~ In a (D s p)) -> Once (push_sys s p (SDetach a)).
Proof.
  intros [K1 K2 K3 K4 K5 K6 K7 K8] Ha Hp Hk Ho Hn. assert (P := push_sys_same s p (SDetach a)).
  assert (TT : forall d, T (push_sys s p (SDetach a)) d = T s d) by (intros d; rewrite push_sys_T; simpl; rewrite app_nil_r; destruct (_ && _); reflexivity).
  constructor.
  - intros d O. destruct (P d) as (_ & _ & _ & P4). rewrite P4 in O. rewrite push_sys_D. destruct (Nat.eqb_spec d p) as [->|]; simpl; auto. rewrite O. apply nodup_snoc; auto.
  - intros d c O I. destruct (P d) as (_ & _ & P3 & P4), (P c) as (Q1 & Q2 & _ & Q4). rewrite P4 in O. rewrite P3, Q1, Q2, Q4. rewrite push_sys_D in I.
    destruct (Nat.eqb_spec d p) as [->|]; simpl in I; [|now apply K2]. rewrite O in I. apply in_snoc in I. destruct I as [I| ->]; [now apply K2|auto].
  - intros d O. rewrite TT. apply K3. destruct (P d) as (_ & _ & _ & P4). congruence.
  - intros d c O I. rewrite TT in I. destruct (P d) as (_ & _ & _ & P4), (P c) as (Q1 & _). rewrite Q1. eapply K4; [|exact I]. congruence.
  - intros d e c O O' I I'. rewrite TT in I, I'. destruct (P d) as (_ & _ & _ & P4), (P e) as (_ & _ & _ & Q4). apply (K5 d e c); congruence.
  - intros O. rewrite push_sys_U. apply K6. destruct (P 0) as (_ & _ & _ & P4). congruence.
  - intros c O I. rewrite push_sys_U in I. destruct (P 0) as (_ & _ & _ & P4), (P c) as (Q1 & _). rewrite Q1. apply K7; congruence.
  - intros d c O O' I I'. rewrite push_sys_U in I. rewrite TT in I'. destruct (P 0) as (_ & _ & _ & P4), (P d) as (_ & _ & _ & Q4). apply (K8 d c); congruence.
Qed.
Lemma once_push_attach s p c : Once s -> att (nd s c) = false -> (forall b, opn (nd s b) = true -> ~ In c (T s b)) -> (opn (nd s 0) = true -> ~ In c (U s)) ->
  Once (push_sys s p (SAttach c)).
Proof.
  intros [K1 K2 K3 K4 K5 K6 K7 K8] Ha Hn Hu. assert (P := push_sys_same s p (SAttach c)).
  assert (DD : forall d, D (push_sys s p (SAttach c)) d = D s d) by (intros d; rewrite push_sys_D; simpl; rewrite app_nil_r; destruct (_ && _); reflexivity).
  assert (TT : forall d x, In x (T (push_sys s p (SAttach c)) d) -> In x (T s d) \/ (x = c /\ d = p)).
  { intros d x. rewrite push_sys_T. destruct (Nat.eqb_spec d p) as [->|]; simpl; auto. destruct (opn (nd s p)); auto. intros I. apply in_snoc in I. tauto. }
  assert (OO : forall d, opn (nd (push_sys s p (SAttach c)) d) = true -> opn (nd s d) = true) by (intros d; destruct (P d) as (_ & _ & _ & P4); congruence).
  constructor.
  - intros d O. rewrite DD. auto.
  - intros d x O I. rewrite DD in I. destruct (P d) as (_ & _ & P3 & P4), (P x) as (Q1 & Q2 & _ & Q4). rewrite P3, Q1, Q2, Q4. apply K2; auto.
  - intros d O. apply OO in O. rewrite push_sys_T. destruct (_ && _); auto. apply nodup_snoc; [auto|]. now apply Hn.
  - intros d x O I. apply OO in O. destruct (P x) as (Q1 & _). rewrite Q1. apply TT in I. destruct I as [I|(-> & _)]; eauto.
  - intros d e x O O' I I'. apply OO in O, O'. apply TT in I, I'. destruct I as [I|(-> & ->)], I' as [I'|(E & E')]; subst; [eauto|now destruct (Hn d O)|now destruct (Hn e O')|reflexivity].
  - intros O. apply OO in O. rewrite push_sys_U. auto.
  - intros x O I. apply OO in O. rewrite push_sys_U in I. destruct (P x) as (Q1 & _). rewrite Q1. auto.
  - intros d x O O' I I'. apply OO in O, O'. rewrite push_sys_U in I. apply TT in I'. destruct I' as [I'|(-> & ->)]; [eauto|]. now apply Hu.
Qed.
Lemma once_push_add s g c : Once s -> att (nd s c) = false -> (forall b, opn (nd s b) = true -> ~ In c (T s b)) -> (opn (nd s 0) = true -> ~ In c (U s)) ->
  Once (push_usr s 0 (UAdd g c)).
Proof.
  intros [K1 K2 K3 K4 K5 K6 K7 K8] Ha Hn Hu. assert (P := push_usr_same s 0 (UAdd g c)).
  assert (OO : forall d, opn (nd (push_usr s 0 (UAdd g c)) d) = true -> opn (nd s d) = true) by (intros d; destruct (P d) as (_ & _ & _ & P4); congruence).
  assert (UU : forall x, In x (U (push_usr s 0 (UAdd g c))) -> In x (U s) \/ x = c).
  { intros x. rewrite push_usr_U. destruct (_ && _); auto. intros I. apply in_snoc in I. tauto. }
  constructor.
  - intros d O. rewrite push_usr_D. auto.
  - intros d x O I. rewrite push_usr_D in I. destruct (P d) as (_ & _ & P3 & P4), (P x) as (Q1 & Q2 & _ & Q4). rewrite P3, Q1, Q2, Q4. apply K2; auto.
  - intros d O. rewrite push_usr_T. auto.
  - intros d x O I. rewrite push_usr_T in I. destruct (P x) as (Q1 & _). rewrite Q1. eauto.
  - intros d e x O O' I I'. rewrite push_usr_T in I, I'. eauto.
  - intros O. apply OO in O. rewrite push_usr_U. destruct (_ && _); auto. apply nodup_snoc; [auto|]. now apply Hu.
  - intros x O I. apply OO in O. destruct (P x) as (Q1 & _). rewrite Q1. apply UU in I. destruct I as [I| ->]; auto.
  - intros d x O O' I I'. apply OO in O, O'. rewrite push_usr_T in I'. apply UU in I. destruct I as [I| ->]; eauto. eapply Hn; eauto.
Qed.

(* pops and the end *)
Lemma sub_dets q : sub (dets (tl q)) (dets q).
Proof. destruct q as [|[] q]; simpl; auto using sub_refl, sub_nil. exact (sub_tl (c :: dets q)). Qed.
Lemma sub_atts q : sub (atts (tl q)) (atts q).
Proof. destruct q as [|[] q]; simpl; auto using sub_refl, sub_nil. exact (sub_tl (c :: atts q)). Qed.
Lemma sub_adds q : sub (adds (tl q)) (adds q).
Proof. destruct q as [|[] q]; simpl; auto using sub_refl, sub_nil. exact (sub_tl (c :: adds q)). Qed.
Lemma once_pop_sys s a : Once s -> Once (pop_sys s a).
Proof. intros K. apply (once_mono s); auto; same; auto using sub_dets, sub_atts. Qed.
Lemma once_pop_usr s a : Once s -> Once (pop_usr s a).
Proof. intros K. apply (once_mono s); auto; same; auto using sub_adds. Qed.
Lemma once_destroy s c : Once s -> Once (destroy s c).
Proof. intros K. apply (once_mono s); auto; same; try discriminate. Qed.
Lemma once_stopping s a k : Once s -> Once (set_stopping s a k).
Proof. intros K. apply (once_mono s); auto; same. Qed.
Lemma once_start s a ok : Once s -> Once (start_node s a ok).
Proof. intros K. apply (once_mono s); auto; same; destruct ok; auto; discriminate. Qed.
Lemma once_stop s a : Once s -> Core s -> opn (nd s a) = true -> Once (stop_node s a).
Proof.
  intros K C O. unfold stop_node. set (v := nd s a). set (s1 := set_nd s a _). 
  assert (K1 : Once s1) by (unfold s1; apply (once_mono s); auto; unfold v; same; discriminate).
  set (s2 := if is_guard a then _ else _).
  assert (K2 : Once s2) by (unfold s2; destruct (is_guard a); [now apply once_push_usr|exact K1]).
  destruct (att v) eqn:At; [|exact K2].
  destruct (c_att s C a At) as (Lt & In1). destruct In1 as [In1|In1]; [|congruence].
  assert (F : forall d, att (nd s2 d) = att (nd s1 d) /\ par (nd s2 d) = par (nd s1 d) /\ kids (nd s2 d) = kids (nd s1 d) /\ opn (nd s2 d) = opn (nd s1 d) /\ D s2 d = D s1 d).
  { intros d. unfold s2. destruct (is_guard a); [|auto]. destruct (push_usr_same s1 0 (UTerm a) d) as (? & ? & ? & ?). rewrite push_usr_D. auto. }
  destruct (F a) as (F1 & F2 & _ & F4 & _), (F (par v)) as (_ & _ & F3 & F5 & F6).
  assert (E1 : nd s1 a = Node (par v) true (gone v) [] (stopping v) (killing v) false false true (sysq v) (usrq v)) by apply upd_eq.
  assert (E2 : nd s1 (par v) = nd s (par v)) by (apply upd_neq; unfold v in *; lia).
  apply once_push_detach; auto.
  - rewrite F1, E1. reflexivity.
  - rewrite F2, E1. reflexivity.
  - rewrite F3, E2. exact In1.
  - rewrite F4, E1. reflexivity.
  - rewrite F5, F6, E2. intros O' I. unfold D in I. rewrite E2 in I. destruct (k_det_in s K (par v) a O' I) as (_ & _ & _ & X). congruence.
Qed.
Lemma in_remove_neq c x l : In x l -> x <> c -> In x (remove_first c l).
Proof. intros I N. destruct (in_remove_first c l x I) as [H|H]; [exact H|contradiction]. Qed.
Lemma once_detached s a c : Once s -> (opn (nd s a) = true -> ~ In c (D s a)) -> Once (set_kids s a (remove_first c (kids (nd s a)))).
Proof.
  intros [K1 K2 K3 K4 K5 K6 K7 K8] H. set (s' := set_kids _ _ _).
  assert (E : forall b, opn (nd s' b) = opn (nd s b) /\ att (nd s' b) = att (nd s b) /\ par (nd s' b) = par (nd s b) /\ D s' b = D s b /\ T s' b = T s b /\
     kids (nd s' b) = if b =? a then remove_first c (kids (nd s a)) else kids (nd s b)) by (unfold s'; same; repeat split).
  assert (EU : U s' = U s) by (unfold s'; same).
  assert (OO : forall d, opn (nd s' d) = true -> opn (nd s d) = true) by (intros d; destruct (E d); congruence).
  constructor.
  - intros b O. destruct (E b) as (_ & _ & _ & -> & _). auto.
  - intros b x O I. apply OO in O. destruct (E b) as (_ & _ & _ & Eb & _ & Ek), (E x) as (-> & -> & -> & _). rewrite Eb in I. rewrite Ek.
    destruct (K2 b x O I) as (A1 & A2 & A3 & A4). repeat split; auto. destruct (Nat.eqb_spec b a) as [->|]; auto. apply in_remove_neq; auto. intros ->. now apply (H O).
  - intros b O. destruct (E b) as (_ & _ & _ & _ & -> & _). auto.
  - intros b x O I. destruct (E b) as (_ & _ & _ & _ & Eb & _), (E x) as (_ & -> & _). rewrite Eb in I. eauto.
  - intros b d x O O' I I'. destruct (E b) as (_ & _ & _ & _ & Eb & _), (E d) as (_ & _ & _ & _ & Ed & _). rewrite Eb in I. rewrite Ed in I'. eauto.
  - intros O. rewrite EU. auto.
  - intros x O I. rewrite EU in I. destruct (E x) as (_ & -> & _). auto.
  - intros b x O O' I I'. rewrite EU in I. destruct (E b) as (_ & _ & _ & _ & Eb & _). rewrite Eb in I'. eauto.
Qed.
Lemma once_attached s a c : Once s -> (forall b, opn (nd s b) = true -> ~ In c (T s b)) -> (opn (nd s 0) = true -> ~ In c (U s)) -> Once (attach s a c).
Proof.
  intros K Ht Hu. unfold attach. destruct (att (nd s c) || gone (nd s c)) eqn:G; [exact K|]. apply orb_false_iff in G. destruct G as (G & _).
  apply once_push_sys; [|exact I]. set (s1 := set_kids _ _ _). set (s' := set_nd _ _ _). destruct K as [K1 K2 K3 K4 K5 K6 K7 K8].
  assert (E : forall b, opn (nd s' b) = opn (nd s b) /\ D s' b = D s b /\ T s' b = T s b /\ (b <> c -> att (nd s' b) = att (nd s b) /\ par (nd s' b) = par (nd s b)) /\
     incl (kids (nd s b)) (kids (nd s' b))).
  { unfold s', s1, D, T. intros b. simpl. unfold upd. destruct (Nat.eqb_spec b c) as [->|], (Nat.eqb_spec c a) as [->|]; simpl; rewrite ?upd_eq; try (destruct (Nat.eqb_spec b a) as [->|]); simpl;
      repeat split; auto using incl_refl, incl_appl; try contradiction. }
  assert (EU : U s' = U s).
  { unfold s', s1, U. simpl. unfold upd. destruct (Nat.eqb_spec 0 c) as [<-|], (Nat.eqb_spec 0 a) as [<-|]; simpl; auto. }
  assert (OO : forall d, opn (nd s' d) = true -> opn (nd s d) = true) by (intros d; destruct (E d); congruence).
  constructor.
  - intros b O. destruct (E b) as (_ & -> & _). auto.
  - intros b x O J. apply OO in O. destruct (E b) as (_ & Eb & _ & _ & Ek). rewrite Eb in J. destruct (K2 b x O J) as (A1 & A2 & A3 & A4).
    assert (N : x <> c) by congruence. destruct (E x) as (-> & _ & _ & Ex & _). destruct (Ex N) as (-> & ->). repeat split; auto.
  - intros b O. destruct (E b) as (_ & _ & -> & _). auto.
  - intros b x O J. apply OO in O. destruct (E b) as (_ & _ & Eb & _). rewrite Eb in J. assert (N : x <> c) by (intros ->; now apply (Ht b O)).
    destruct (E x) as (_ & _ & _ & Ex & _). destruct (Ex N) as (-> & _). eauto.
  - intros b d x O O' J J'. destruct (E b) as (_ & _ & Eb & _), (E d) as (_ & _ & Ed & _). rewrite Eb in J. rewrite Ed in J'. eauto.
  - intros O. rewrite EU. auto.
  - intros x O J. apply OO in O. rewrite EU in J. assert (N : x <> c) by (intros ->; now apply (Hu O)). destruct (E x) as (_ & _ & _ & Ex & _). destruct (Ex N) as (-> & _). eauto.
  - intros b x O O' J J'. rewrite EU in J. destruct (E b) as (_ & _ & Eb & _). rewrite Eb in J'. eauto.
Qed.

Lemma once_ext s s' : (forall b, nd s' b = nd s b) -> Once s -> Once s'.
Proof. intros E K. apply (once_mono s); auto; intros; unfold D, T, U in *; rewrite ?E in *; auto using sub_refl. Qed.
Lemma once_poison l : forall s, Once s -> Once (fold_left (fun s c => push_usr s c UPoison) l s).
Proof. induction l as [|c l IH]; intros s K; [exact K|]. simpl. apply IH. now apply once_push_usr. Qed.
Lemma once_handle_sys s a m q ok : Once s -> Core s -> opn (nd s a) = true -> sysq (nd s a) = m :: q -> Once (pop_sys (handle_sys s a m ok) a).
Proof.
  intros K C O Q. destruct m as [| | |c|c]; cbn [handle_sys].
  - now apply once_pop_sys, once_start.
  - destruct (is_nil _); apply once_pop_sys; [now apply once_stop|]. now apply once_poison, once_stopping.
  - destruct (is_nil _); apply once_pop_sys; [now apply once_stop|]. now apply once_stopping.
  - destruct (stopping (nd s a)); [destruct (att (nd s c)); apply once_pop_sys; [exact K|now apply once_destroy]|].
    assert (Ic : In (SAttach c) (sysq (nd s a))) by (rewrite Q; now left). apply (c_attq s C) in Ic.
    assert (It : In c (T s a)) by (unfold T; rewrite Q; simpl; now left).
    assert (Nd := k_att s K a O). unfold T in Nd. rewrite Q in Nd. simpl in Nd. inversion Nd as [|? ? N1 N2]; subst.
    apply (once_ext (attach (pop_sys s a) a c)).
    + assert (Ec : forall v, upd (nd s) a v c = nd s c) by (intros; apply upd_neq; lia).
      intros b. unfold attach, set_kids. cbn [pop_sys set_nd nd]. rewrite !Ec, !upd_eq. destruct (att (nd s c) || gone (nd s c)); [reflexivity|].
      unfold push_sys. cbn [set_nd nd size flag requested]. rewrite !upd_eq. cbn [opn].
      assert (Ed : forall v w, upd (upd (nd s) a v) a w c = nd s c) by (intros; rewrite upd_neq by lia; apply Ec). rewrite ?Ec, ?Ed.
      destruct (opn (nd s c)); cbn [set_nd nd size flag requested pop_sys]; unfold upd;
        repeat match goal with |- context[?x =? ?y] => destruct (Nat.eqb_spec x y); subst; simpl end; try lia; reflexivity.
    + apply once_attached; [now apply once_pop_sys| |].
      * intros b Ob J. unfold T in J. cbn [pop_sys set_nd nd] in J, Ob. destruct (Nat.eq_dec b a) as [E|N].
        -- rewrite E, upd_eq in J. cbn [sysq] in J. rewrite Q in J. now apply N1.
        -- rewrite upd_neq in J, Ob by exact N. apply N. exact (k_att_one s K b a c Ob O J It).
      * intros Ob I. unfold U in I. simpl in I, Ob. unfold upd in I, Ob.
        assert (Iu : In c (U s)) by (unfold U; destruct (Nat.eqb_spec 0 a) as [<-|]; exact I).
        assert (Ou : opn (nd s 0) = true) by (destruct (Nat.eqb_spec 0 a) as [<-|]; exact Ob).
        exact (k_add_one s K a c Ou O Iu It).
  - destruct (_ && _); [now apply once_pop_sys, once_stop|].
    assert (Nd := k_det s K a O). unfold D in Nd. rewrite Q in Nd. simpl in Nd. inversion Nd as [|? ? N1 N2]; subst.
    apply (once_ext (set_kids (pop_sys s a) a (remove_first c (kids (nd (pop_sys s a) a))))).
    + intros b. simpl. rewrite !upd_eq. unfold upd. destruct (Nat.eqb_spec b a) as [->|]; reflexivity.
    + apply once_detached; [now apply once_pop_sys|]. intros _. unfold D. simpl. rewrite upd_eq. simpl. rewrite Q. exact N1.
Qed.
Lemma once_flag s f r : Once s -> Once (State (size s) (nd s) f r).
Proof. apply once_ext. reflexivity. Qed.
Lemma once_handle_usr s a u q : Once s -> Core s -> opn (nd s a) = true -> usrq (nd s a) = u :: q -> Once (pop_usr (handle_usr s a u) a).
Proof.
  intros K C O Q. destruct u as [|g c|b|g|]; unfold handle_usr; [apply once_pop_usr; now apply once_push_sys|..|now apply once_pop_usr]; 
    destruct (Nat.eqb_spec a 0) as [->|N]; simpl negb; cbv iota; try (now apply once_pop_usr).
  - assert (Ia : In (UAdd g c) (usrq (nd s 0))) by (rewrite Q; now left). apply (c_addq s C) in Ia.
    destruct (opn (nd s g)) eqn:Og; [|destruct (att (nd s c)); apply once_pop_usr; [exact K|now apply once_destroy]].
    assert (Iu : In c (U s)) by (unfold U; rewrite Q; simpl; now left).
    assert (Nd := k_add s K O). unfold U in Nd. rewrite Q in Nd. simpl in Nd. inversion Nd as [|? ? N1 N2]; subst.
    apply (once_ext (push_sys (pop_usr s 0) g (SAttach c))).
    + intros b. unfold push_sys, pop_usr. simpl. rewrite (upd_neq _ _ _ g) by lia. rewrite Og. destruct g as [|g]; [lia|]. simpl. unfold upd.
      repeat match goal with |- context[?x =? ?y] => destruct (Nat.eqb_spec x y); subst; simpl end; try lia; reflexivity.
    + apply once_push_attach; [now apply once_pop_usr| | |].
      * simpl. unfold upd. destruct (Nat.eqb_spec c 0) as [->|]; [lia|]. exact (k_add_in s K c O Iu).
      * intros b Ob J. unfold T in J. cbn [pop_usr set_nd nd] in J, Ob.
        assert (X : forall w, usrq w = usrq w -> sysq (upd (nd s) 0 (Node (par (nd s 0)) (att (nd s 0)) (gone (nd s 0)) (kids (nd s 0)) (stopping (nd s 0)) (killing (nd s 0)) (started (nd s 0)) (opn (nd s 0)) (stopped (nd s 0)) (sysq (nd s 0)) (tl (usrq (nd s 0)))) b) = sysq (nd s b)).
        { intros _ _. unfold upd. destruct (Nat.eqb_spec b 0) as [E|N]; [rewrite E|]; reflexivity. }
        rewrite (X (nd s 0) eq_refl) in J. clear X. apply (k_add_one s K b c O); [|exact Iu|exact J].
        destruct (Nat.eq_dec b 0) as [E|N]; [rewrite E; exact O|]. rewrite upd_neq in Ob by exact N. exact Ob.
      * intros _. unfold U. simpl. rewrite Q. exact N1.
  - apply once_pop_usr, once_push_sys; [apply once_push_sys; [exact K|]|]; destruct b; exact I.
  - cbv zeta. apply once_pop_usr. assert (K1 := once_flag s (upd (flag s) g true) (requested s) K). set (s1 := State _ _ _ _) in *.
    destruct (_ && _); [now apply once_push_sys|]. destruct (_ && _); [|exact K1].
    destruct (flag s1 1), (flag s1 2); repeat (apply once_push_sys; [|exact I]); exact K1.
Qed.
Lemma once_new s : Once s -> Core s -> Once (new_actor s).
Proof.
  intros [K1 K2 K3 K4 K5 K6 K7 K8] C.
  assert (E : forall b, b <> size s -> nd (new_actor s) b = nd s b) by (intros; now apply upd_neq).
  assert (E0 : nd (new_actor s) (size s) = fresh) by apply upd_eq.
  assert (Z : 0 <> size s) by (assert (X := c_size s C); lia).
  assert (AA : forall x, att (nd (new_actor s) x) = att (nd s x)).
  { intros x. destruct (Nat.eq_dec x (size s)) as [->|N]; [|now rewrite E]. rewrite E0, (c_abs s C) by lia. reflexivity. }
  assert (PP : forall x, par (nd (new_actor s) x) = par (nd s x)).
  { intros x. destruct (Nat.eq_dec x (size s)) as [->|N]; [|now rewrite E]. rewrite E0, (c_abs s C) by lia. reflexivity. }
  assert (DD : forall b x, In x (D (new_actor s) b) -> b <> size s /\ In x (D s b)).
  { intros b x I. unfold D in *. destruct (Nat.eq_dec b (size s)) as [->|N]; [rewrite E0 in I; destruct I|]. rewrite E in I by exact N. auto. }
  assert (TT : forall b x, In x (T (new_actor s) b) -> b <> size s /\ In x (T s b)).
  { intros b x I. unfold T in *. destruct (Nat.eq_dec b (size s)) as [->|N]; [rewrite E0 in I; destruct I|]. rewrite E in I by exact N. auto. }
  assert (UU : U (new_actor s) = U s) by (unfold U; now rewrite E).
  assert (DL : forall b x, In x (D s b) -> x <> size s).
  { intros b x I. unfold D, dets in I. apply in_flat_map in I. destruct I as (m & I & J). destruct m; try destruct J as [<-|[]]; try contradiction. apply (c_det s C) in I. lia. }
  constructor.
  - intros b O. destruct (Nat.eq_dec b (size s)) as [->|N]; [unfold D; rewrite E0; constructor|]. unfold D. rewrite E in * by exact N. now apply K1.
  - intros b x O I. apply DD in I. destruct I as (N & I). rewrite E in O by exact N. rewrite AA, PP, (E b N), (E x (DL b x I)). now apply K2.
  - intros b O. destruct (Nat.eq_dec b (size s)) as [->|N]; [unfold T; rewrite E0; constructor|]. unfold T. rewrite E in * by exact N. now apply K3.
  - intros b x O I. apply TT in I. destruct I as (N & I). rewrite E in O by exact N. rewrite AA. eauto.
  - intros b d x O O' I I'. apply TT in I, I'. destruct I as (N & I), I' as (N' & I'). rewrite E in O, O' by assumption. eauto.
  - rewrite UU, (E 0 Z). exact K6.
  - intros x. rewrite UU, (E 0 Z), AA. apply K7.
  - intros b x. rewrite UU, (E 0 Z). intros O O' I I'. apply TT in I'. destruct I' as (N & I'). rewrite E in O' by exact N. eauto.
Qed.
Lemma new_clean s : Core s -> att (nd (new_actor s) (size s)) = false /\ (forall b, opn (nd (new_actor s) b) = true -> ~ In (size s) (T (new_actor s) b)) /\
  (opn (nd (new_actor s) 0) = true -> ~ In (size s) (U (new_actor s))).
Proof.
  intros C. split; [simpl; now rewrite upd_eq|]. split.
  - intros b _ I. unfold T, atts in I. apply in_flat_map in I. destruct I as (m & I & J). destruct m; try destruct J as [->|[]]; try contradiction.
    simpl in I. unfold upd in I. destruct (b =? size s); [destruct I|]. apply (c_attq s C) in I. lia.
  - intros _ I. unfold U, adds in I. apply in_flat_map in I. destruct I as (m & I & J). destruct m; try destruct J as [->|[]]; try contradiction.
    simpl in I. unfold upd in I. destruct (0 =? size s); [destruct I|]. apply (c_addq s C) in I. lia.
Qed.
Lemma once_match x s s' : Once s -> Core s -> match_step x s s' -> Once s'.
Proof.
  intros K C M. destruct M as [a ok m q E O Q ->|a ok u q E O St Q ->|a ok u q E O Lo Q ->|y E H Ne|g E ->|a c E Lc At ->|a E ->].
  - eapply once_handle_sys; eauto.
  - eapply once_handle_usr; eauto.
  - now apply once_pop_usr.
  - destruct (new_clean s C) as (N1 & N2 & N3). assert (Kn := once_new s K C).
    destruct y as [a ok|g|p|a|a kk|b]; [now destruct (Ne a ok)|..]; cbn [step] in H; cbv zeta in H.
    + destruct (is_guard g); [|discriminate]. fold (new_actor s) in H. destruct (opn (nd (new_actor s) 0)); injection H as <-; [apply once_push_add; auto|now apply once_destroy].
    + destruct (_ && _); [|discriminate]. injection H as <-. fold (new_actor s). apply once_push_attach; auto.
    + injection H as <-. now apply once_push_sys.
    + injection H as <-. apply once_push_usr; [exact K|]. destruct kk; exact I.
    + injection H as <-. apply once_flag. now apply once_push_usr.
  - now apply once_new.
  - now apply once_destroy.
  - exact K.
Qed.

(* ---- the tree with overlapping handlers ---- *)
Lemma nodup_perm (l l' : list nat) : Permutation l l' -> NoDup l -> NoDup l'.
Proof. intros P. now apply Permutation_NoDup. Qed.
Lemma dets_perm q q' : Permutation q q' -> Permutation (dets q) (dets q').
Proof. intros P. unfold dets. induction P; simpl; auto; [now apply Permutation_app_head|rewrite !app_assoc; apply Permutation_app_tail, Permutation_app_comm|etransitivity; eassumption]. Qed.
Lemma atts_perm q q' : Permutation q q' -> Permutation (atts q) (atts q').
Proof. intros P. unfold atts. induction P; simpl; auto; [now apply Permutation_app_head|rewrite !app_assoc; apply Permutation_app_tail, Permutation_app_comm|etransitivity; eassumption]. Qed.
Lemma adds_perm q q' : Permutation q q' -> Permutation (adds q) (adds q').
Proof. intros P. unfold adds. induction P; simpl; auto; [now apply Permutation_app_head|rewrite !app_assoc; apply Permutation_app_tail, Permutation_app_comm|etransitivity; eassumption]. Qed.
Lemma sub_perm l l' : Permutation l l' -> sub l' l.
Proof. intros P. split; [now apply nodup_perm|]. intros x. apply Permutation_in. now apply Permutation_sym. Qed.
Lemma once_shuffle s s0 : shuffle s s0 -> Once s -> Once s0.
Proof.
  intros Sh K. assert (N := sh_nd _ _ Sh). apply (once_mono s); auto; intros.
  - destruct (N b) as (_ & O & _). congruence.
  - destruct (N b) as (_ & O & _). congruence.
  - destruct (N b) as (E & _). now apply skel_att.
  - destruct (N b) as (E & _). now apply skel_par.
  - destruct (N b) as (E & _ & P & _). split; [now apply skel_kids|]. split; apply sub_perm; [now apply dets_perm|now apply atts_perm].
  - destruct (N 0) as (_ & _ & _ & P). apply sub_perm. now apply adds_perm.
Qed.
Lemma init_once : Once init.
Proof.
  constructor; unfold D, T, U.
  - intros a _. destruct a as [|[|[|[|[|a]]]]]; simpl; constructor.
  - intros a c _. destruct a as [|[|[|[|[|a]]]]]; simpl; tauto.
  - intros a _. destruct a as [|[|[|[|[|a]]]]]; simpl; constructor.
  - intros a c _. destruct a as [|[|[|[|[|a]]]]]; simpl; tauto.
  - intros a b c _ _. destruct a as [|[|[|[|[|a]]]]]; simpl; tauto.
  - intros _. simpl. constructor.
  - intros c _. simpl. tauto.
  - intros a c _ _. simpl. tauto.
Qed.
Lemma reach_once xs : forall f f' s, Matched f s -> Once s -> frun f xs = Some f' -> exists s', Matched f' s' /\ Once s'.
Proof.
  induction xs as [|x xs IH]; intros f f' s M K H; simpl in H; [injection H as <-; eauto|].
  destruct (fstep f x) as [f1|] eqn:E; [|discriminate]. destruct M as (R & Sn & C).
  destruct (fstep_match f x f1 s C R Sn E) as (s0 & s1 & Sh & M1 & R1). assert (C0 := shuffle_Core _ _ Sh C). assert (K0 := once_shuffle _ _ Sh K).
  apply (IH f1 f' s1); [|eapply once_match; eassumption|exact H]. split; [exact R1|]. split; [|eapply match_core; eassumption].
  eapply sane_step; [exact C|exact R|exact Sn|exact (r_out _ _ _ R)|exact E].
Qed.
Lemma freach_once xs f : frun finit xs = Some f -> exists s, Matched f s /\ Once s.
Proof.
  intros H. apply (reach_once xs finit f init); [|exact init_once|exact H]. split; [apply rep_init|]. split; [apply sane_init|exact init_core].
Qed.
(* the assertions of add_child and remove_child hold *)
Lemma asserts_hold xs f a m q : frun finit xs = Some f -> todo f a = [] -> opn (nd (base f) a) = true -> sysq (nd (base f) a) = m :: q ->
  asserts_sys (base f) a m = None.
Proof.
  intros H Td O Q. destruct (freach_once _ _ H) as (s & (R & Sn & C) & K).
  assert (Os : opn (nd s a) = true) by (rewrite (r_opn _ _ _ R), O; unfold leaving; rewrite Td; reflexivity).
  assert (I : In m (sysq (nd s a))) by (eapply Permutation_in; [apply Permutation_sym, (r_sys _ _ _ R a Os)|]; rewrite Q; now left).
  destruct m as [| | |c|c]; try reflexivity; cbn [asserts_sys].
  - destruct (stopping (nd (base f) a)); [reflexivity|]. rewrite <- (skel_att _ _ (r_nd _ _ _ R c)).
    rewrite (k_att_in s K a c Os); [reflexivity|]. unfold T, atts. apply in_flat_map. exists (SAttach c). split; [exact I|now left].
  - destruct (k_det_in s K a c Os) as (_ & _ & X & _); [unfold D, dets; apply in_flat_map; exists (SDetach c); split; [exact I|now left]|].
    rewrite (skel_kids _ _ (r_nd _ _ _ R a)) in X. replace (existsb (Nat.eqb c) (kids (nd (base f) a))) with true; [reflexivity|].
    symmetry. apply existsb_exists. exists c. split; [exact X|apply Nat.eqb_refl].
Qed.
Lemma abort_root xs f x w f' : frun finit xs = Some f -> fstep f x = Some f' -> asserts f x = Some w ->
  w = UnknownRootMessage /\ exists ok q, x = FHandle 0 ok /\ usrq (nd (base f) 0) = UOther :: q.
Proof.
  intros H E A. destruct x as [a ok|a|y]; try discriminate. cbn [asserts] in A. unfold fstep in E. cbv zeta in E.
  destruct (is_nil (todo f a)) eqn:G1; [|discriminate]. apply is_nil_spec in G1. destruct (opn (nd (base f) a)) eqn:G2; [|discriminate]. simpl andb in E. cbv iota in E.
  destruct (sysq (nd (base f) a)) as [|m q] eqn:Q.
  - destruct (usrq (nd (base f) a)) as [|u q] eqn:Qu; [discriminate|]. destruct u; try discriminate. simpl in A. destruct (Nat.eqb_spec a 0) as [->|]; [|discriminate].
    injection A as <-. split; [reflexivity|]. eauto.
  - rewrite (asserts_hold xs f a m q H G1 G2 Q) in A. discriminate.
Qed.

(* who leaves the root alone *)
Definition spared (f : fstate) : Prop := ~ In UOther (usrq (nd (base f) 0)) /\ forall a b, ~ In (EUsr b UOther) (todo f a).
Lemma fhandle_sys_other s a m ok b : ~ In (EUsr b UOther) (snd (fhandle_sys s a m ok)).
Proof.
  assert (F : ~ In (EUsr b UOther) (farewell s a)) by (unfold farewell; destruct (is_guard a), (att (nd s a)); simpl; intuition discriminate).
  destruct m; cbn [fhandle_sys]; cbv zeta; repeat match goal with |- context[if ?b then _ else _] => destruct b end; cbn [snd]; auto; simpl; try (intuition discriminate).
  intros H. apply in_map_iff in H. destruct H as (? & X & _). discriminate.
Qed.
Lemma fhandle_usr_other s a u b : ~ In (EUsr b UOther) (snd (fhandle_usr s a u)).
Proof.
  destruct u; cbn [fhandle_usr]; cbv zeta; repeat match goal with |- context[if ?b then _ else _] => destruct b end; cbn [snd app]; simpl; intuition discriminate.
Qed.
Lemma spared_step xs f x f' : frun finit xs = Some f -> spared f -> spares_the_root x = true -> fstep f x = Some f' -> spared f'.
Proof.
  intros Hr (S1 & S2) Sx H. destruct (freachable_matched f (ex_intro _ xs Hr)) as (s0 & R0 & Sn & C0). destruct x as [a ok|a|y]; unfold fstep in H; cbv zeta in H.
  - destruct (is_nil (todo f a) && opn (nd (base f) a)) eqn:G; [|discriminate]. apply andb_true_iff in G. destruct G as [_ G2].
    assert (L := open_below _ a Sn G2).
    destruct (sysq (nd (base f) a)) as [|m q] eqn:Q.
    + destruct (started _); [|discriminate]. destruct (usrq (nd (base f) a)) as [|u q] eqn:Qu; [discriminate|]. injection H as <-. unfold begin, spared. cbn [base todo].
      destruct (fhandle_usr_frame (base f) a u) as (_ & F2 & _). split.
      * cbn [pop_usr set_nd nd]. rewrite F2. unfold upd. destruct (Nat.eqb_spec 0 a) as [E|N]; [|exact S1]. cbn [usrq]. intros I. apply tl_in in I. subst a. now apply S1.
      * intros d b. unfold upd. destruct (d =? a); [apply fhandle_usr_other|apply S2].
    + injection H as <-. unfold begin, spared. cbn [base todo].
      assert (Sm : sane_sys (size (base f)) a m) by (apply (n_sys _ Sn a); rewrite Q; now left).
      destruct (fhandle_sys_frame (base f) a m ok L Sm) as (_ & _ & F3 & _). split.
      * cbn [pop_sys set_nd nd]. unfold upd. destruct (Nat.eqb_spec 0 a) as [<-|N]; cbn [usrq]; rewrite F3; exact S1.
      * intros d b. unfold upd. destruct (d =? a); [apply fhandle_sys_other|apply S2].
  - destruct (todo f a) as [|e l] eqn:E; [discriminate|]. injection H as <-.
    assert (S2' : forall d b, ~ In (EUsr b UOther) (upd (todo f) a l d)).
    { intros d b. unfold upd. destruct (Nat.eqb_spec d a) as [->|]; [|apply S2]. intros I. apply (S2 a b). rewrite E. now right. }
    destruct e as [b m|b u| |]; unfold emit, spared; cbn [base todo]; (split; [|exact S2']).
    + unfold deliver. destruct (opn _); [rewrite push_sys_usrq; exact S1|]. destruct m; try exact S1. destruct (att _); [exact S1|].
      cbn [destroy set_nd nd]. unfold upd. destruct (Nat.eqb_spec 0 c) as [<-|]; exact S1.
    + intros I. apply push_usr_in_inv in I. destruct I as [I|(Eb & Eu)]; [now apply S1|]. apply (S2 a b). rewrite E, Eu. now left.
    + cbn [close set_nd nd]. unfold upd. destruct (Nat.eqb_spec 0 a) as [<-|]; exact S1.
    + exact S1.
  - assert (L5 := n_five _ Sn).
    assert (N0 : usrq (nd (new_actor (base f)) 0) = usrq (nd (base f) 0)) by (cbn [new_actor nd]; rewrite upd_neq by lia; reflexivity).
    destruct y as [a ok|g|p|a|a kk|b]; [discriminate|..]; cbn [step] in H; cbv zeta in H.
    + destruct (is_guard g); [|discriminate]. fold (new_actor (base f)) in H. destruct (opn (nd (new_actor (base f)) 0)); injection H as <-; (split; [|exact S2]); cbn [base].
      * intros I. apply push_usr_in_inv in I. rewrite N0 in I. destruct I as [I|(_ & I)]; [now apply S1|discriminate].
      * cbn [destroy set_nd nd]. rewrite upd_neq by lia. rewrite N0. exact S1.
    + destruct (_ && _); [|discriminate]. injection H as <-. split; [|exact S2]. cbn [base]. rewrite push_sys_usrq. fold (new_actor (base f)). rewrite N0. exact S1.
    + injection H as <-. split; [|exact S2]. cbn [base]. rewrite push_sys_usrq. exact S1.
    + injection H as <-. split; [|exact S2]. cbn [base]. intros I. apply push_usr_in_inv in I. destruct I as [I|(Ea & I)]; [now apply S1|]. destruct kk; [discriminate I|]. subst a. discriminate Sx.
    + injection H as <-. split; [|exact S2]. cbn [base nd]. intros I. apply push_usr_in_inv in I. destruct I as [I|(_ & I)]; [now apply S1|discriminate].
Qed.
Lemma frun_snoc xs : forall f g x, frun f xs = Some g -> frun f (xs ++ [x]) = fstep g x.
Proof. induction xs as [|y xs IH]; intros f g x H; simpl in H |- *; [injection H as <-; destruct (fstep f x); reflexivity|]. destruct (fstep f y); [now apply IH|discriminate]. Qed.
Lemma dfrun_next ys : forall xs f g, frun finit xs = Some f -> dfrun f ys = Next g -> frun f ys = Some g.
Proof.
  induction ys as [|y ys IH]; intros xs f g H E; simpl in *; [now injection E as <-|]. unfold dfstep in E. destruct (fstep f y) as [f1|] eqn:S; [|discriminate].
  destruct (asserts f y); [discriminate|]. apply (IH (xs ++ [y])); [rewrite (frun_snoc _ _ _ _ H); exact S|exact E].
Qed.
Lemma dfrun_abort ys : forall xs f w, frun finit xs = Some f -> dfrun f ys = Abort w -> w = UnknownRootMessage.
Proof.
  induction ys as [|y ys IH]; intros xs f w H E; simpl in *; [discriminate|]. unfold dfstep in E. destruct (fstep f y) as [f1|] eqn:S; [|discriminate].
  destruct (asserts f y) eqn:A; [injection E as <-; now destruct (abort_root _ _ _ _ _ H S A)|]. apply (IH (xs ++ [y]) f1); [rewrite (frun_snoc _ _ _ _ H); exact S|exact E].
Qed.
Lemma dfrun_spared ys : forall xs f g, frun finit xs = Some f -> spared f -> forallb spares_the_root ys = true -> frun f ys = Some g -> dfrun f ys = Next g.
Proof.
  induction ys as [|y ys IH]; intros xs f g H Sp Sy E; simpl in *; [now injection E as <-|]. apply andb_true_iff in Sy. destruct Sy as [Sy1 Sy2].
  unfold dfstep. destruct (fstep f y) as [f1|] eqn:S; [|discriminate].
  destruct (asserts f y) eqn:A.
  - destruct (abort_root _ _ _ _ _ H S A) as (_ & ok & q & _ & X). destruct Sp as [Sp _]. exfalso. apply Sp. rewrite X. now left.
  - apply (IH (xs ++ [y])); auto; [rewrite (frun_snoc _ _ _ _ H); exact S|]. eapply spared_step; eassumption.
Qed.
Lemma spared_init : spared finit.
Proof. split; [simpl; tauto|intros a b; simpl; tauto]. Qed.
