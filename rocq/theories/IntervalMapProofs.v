(* Proofs about IntervalMapModel. *)
From Coq Require Import List ZArith Bool Lia Sorted.
From Verif Require Import IntervalMapModel.
Import ListNotations.
Local Open Scope Z_scope.

Section Proofs.
Variable V : Type.
Variable veq : V -> V -> bool.
Hypothesis veq_spec : forall a b, reflect (a = b) (veq a b).
Notation imap := (imap V).

Definition klt (X : imap) (k : Z) := Forall (fun p => fst p < k) X.
Definition kge (X : imap) (k : Z) := Forall (fun p => k <= fst p) X.
Definition kgt (X : imap) (k : Z) := Forall (fun p => k < fst p) X.
Definition sorted (m : imap) := StronglySorted (fun a b => fst a < fst b) m.
Definition hd_key (m : imap) : option Z := match m with [] => None | (k,_)::_ => Some k end.

Lemma sorted_app (X Y : imap) :
  sorted (X ++ Y) <-> sorted X /\ sorted Y /\ forall a b, In a X -> In b Y -> fst a < fst b.
Proof.
  unfold sorted. induction X as [|x X IH]; simpl.
  - split; [intros H; repeat split; auto using SSorted_nil; tauto | tauto].
  - split.
    + intros H. inversion H as [|? ? H1 H2]; subst. apply IH in H1. destruct H1 as (H1 & H3 & H4).
      rewrite Forall_app in H2. destruct H2 as [H2 H5].
      repeat split; [constructor; assumption | assumption |].
      intros a b [<-|Ha] Hb; [rewrite Forall_forall in H5; auto | auto].
    + intros (H1 & H2 & H3). inversion H1; subst. constructor.
      * apply IH. repeat split; auto.
      * apply Forall_app; split; [assumption|]. apply Forall_forall. auto.
Qed.

Lemma lower_bound_app X Y k : klt X k -> lower_bound V (X ++ Y) k = lower_bound V Y k.
Proof.
  intros H; induction H as [|[k' v'] X Hx HX IH]; simpl in *; [reflexivity|].
  destruct (Z.ltb_spec k' k); [exact IH|lia].
Qed.
Lemma lower_bound_ge Y k : kge Y k -> lower_bound V Y k = hd_key Y.
Proof.
  intros H; destruct H as [|[k' v'] Y Hy HY]; simpl in *; [reflexivity|].
  destruct (Z.ltb_spec k' k); [lia|reflexivity].
Qed.
Lemma upper_bound_app X Y k : Forall (fun p => fst p <= k) X -> upper_bound V (X ++ Y) k = upper_bound V Y k.
Proof.
  intros H; induction H as [|[k' v'] X Hx HX IH]; simpl in *; [reflexivity|].
  destruct (Z.leb_spec k' k); [exact IH|lia].
Qed.
Lemma upper_bound_gt Y k : kgt Y k -> upper_bound V Y k = hd_key Y.
Proof.
  intros H; destruct H as [|[k' v'] Y Hy HY]; simpl in *; [reflexivity|].
  destruct (Z.leb_spec k' k); [lia|reflexivity].
Qed.
Lemma filter_all {A} (f : A -> bool) l : Forall (fun x => f x = true) l -> filter f l = l.
Proof. induction 1 as [|x l Hx Hl IH]; simpl; [reflexivity|rewrite Hx, IH; reflexivity]. Qed.
Lemma filter_none {A} (f : A -> bool) l : Forall (fun x => f x = false) l -> filter f l = [].
Proof. induction 1 as [|x l Hx Hl IH]; simpl; [reflexivity|rewrite Hx, IH; reflexivity]. Qed.

Lemma before_app X Y : sorted (X ++ Y) -> before V (X ++ Y) (hd_key Y) = X.
Proof.
  intros H. apply sorted_app in H. destruct H as (_ & HY & Hlt).
  destruct Y as [|[k v] Y]; simpl; [apply app_nil_r|].
  rewrite filter_app, filter_all, filter_none, app_nil_r; [reflexivity| |].
  - apply Forall_forall. intros [a b] Hin. simpl. apply Z.ltb_ge.
    destruct Hin as [E|Hin]; [inversion E; lia|].
    inversion HY as [|? ? ? HF]; subst. rewrite Forall_forall in HF. specialize (HF _ Hin). simpl in HF. lia.
  - apply Forall_forall. intros [a b] Hin. simpl. apply Z.ltb_lt.
    specialize (Hlt (a,b) (k,v) Hin (or_introl eq_refl)). simpl in Hlt. exact Hlt.
Qed.
Lemma last_key_snoc X k v : last_key V (X ++ [(k,v)]) = Some k.
Proof.
  induction X as [|[a b] X IH]; [reflexivity|].
  simpl. destruct (X ++ [(k,v)]) eqn:E; [destruct X; discriminate|exact IH].
Qed.
Lemma get_app_ne X Y k : Forall (fun p => fst p <> k) X -> get V (X ++ Y) k = get V Y k.
Proof.
  induction 1 as [|[a b] X Hx HX IH]; simpl in *; [reflexivity|].
  destruct (Z.eqb_spec a k); [contradiction|exact IH].
Qed.
Lemma insert_app X Y k v : klt X k -> kgt Y k -> insert V (X ++ Y) k v = X ++ (k,v) :: Y.
Proof.
  intros HX HY; induction HX as [|[a b] X Hx HX IH]; simpl in *.
  - destruct HY as [|[a b] Y Hy HY]; simpl in *; [reflexivity|].
    destruct (Z.ltb_spec k a); [reflexivity|lia].
  - destruct (Z.ltb_spec k a); [lia|]. destruct (Z.eqb_spec k a); [lia|]. rewrite IH; reflexivity.
Qed.
Lemma set_app X Y k v v' : klt X k -> set V (X ++ (k,v) :: Y) k v' = X ++ (k,v') :: Y.
Proof.
  intros HX; induction HX as [|[a b] X Hx HX IH]; simpl in *.
  - rewrite Z.eqb_refl. reflexivity.
  - destruct (Z.eqb_spec a k); [lia|]. rewrite IH; reflexivity.
Qed.
Lemma prev_snoc X k v Y : sorted ((X ++ [(k,v)]) ++ Y) -> prev V ((X ++ [(k,v)]) ++ Y) (hd_key Y) = Some k.
Proof. intros H. unfold prev. rewrite before_app by exact H. apply last_key_snoc. Qed.
Lemma get_mid X k v Y : klt X k -> get V (X ++ (k,v) :: Y) k = Some v.
Proof.
  intros H. rewrite get_app_ne; simpl; [rewrite Z.eqb_refl; reflexivity|].
  eapply Forall_impl; [|exact H]. simpl; intros; lia.
Qed.

(* value in force at the end of a segment, starting from v0 *)
Definition lastv (X : imap) (d : option V) : option V := fold_left (fun _ p => Some (snd p)) X d.
Lemma lastv_snoc X k v d : lastv (X ++ [(k,v)]) d = Some v.
Proof. unfold lastv. rewrite fold_left_app. reflexivity. Qed.

(* decomposition of a sorted list at a key *)
Lemma split_at (m : imap) k : sorted m -> exists X Y, m = X ++ Y /\ klt X k /\ kge Y k.
Proof.
  induction m as [|[a b] m IH]; intros H.
  - exists [], []. repeat split; constructor.
  - inversion H as [|? ? H1 H2]; subst. destruct (Z.lt_ge_cases a k) as [L|G].
    + destruct (IH H1) as (X & Y & -> & HX & HY). exists ((a,b)::X), Y. repeat split; auto.
      constructor; auto.
    + exists [], ((a,b)::m). repeat split; [constructor|]. constructor; [exact G|].
      eapply Forall_impl; [|exact H2]. simpl; intros; lia.
Qed.

(* three-way: A before kb, B in [kb,ke), C from ke on *)
Lemma split3 (m : imap) kb ke : sorted m -> kb < ke ->
  exists A B C, m = A ++ B ++ C /\ klt A kb /\ kge B kb /\ klt B ke /\ kge C ke.
Proof.
  intros H L. destruct (split_at m ke H) as (X & C & -> & HX & HC).
  apply sorted_app in H. destruct H as (HsX & _ & _).
  destruct (split_at X kb HsX) as (A & B & -> & HA & HB).
  exists A, B, C. rewrite app_assoc. apply Forall_app in HX. destruct HX as [_ HX].
  repeat split; auto.
Qed.

Definition opt_pt (k : Z) (v : V) (old : option V) : imap :=
  match old with Some o => if veq o v then [] else [(k,v)] | None => [(k,v)] end.
Definition end_pt (k : Z) (v o : V) : imap := if veq o v then [] else [(k,o)].

Definition drop_key (C : imap) (k : Z) : imap :=
  match C with (k',v)::t => if k' =? k then t else C | [] => [] end.
(* old value at ke *)
Definition at_end (AB C : imap) (ke : Z) : option V :=
  match C with (k',v)::_ => if k' =? ke then Some v else lastv AB None | [] => lastv AB None end.

Lemma klt_in X k p : klt X k -> In p X -> fst p < k.
Proof. unfold klt; rewrite Forall_forall; auto. Qed.
Lemma kge_in X k p : kge X k -> In p X -> k <= fst p.
Proof. unfold kge; rewrite Forall_forall; auto. Qed.
Lemma klt_trans X a b : klt X a -> a <= b -> klt X b.
Proof. unfold klt; intros H L. eapply Forall_impl; [|exact H]; simpl; intros; lia. Qed.

Lemma sorted_tail_gt k v (C : imap) : sorted ((k,v)::C) -> kgt C k.
Proof. intros H; inversion H; subst; assumption. Qed.
Lemma kgt_trans C a b : kgt C a -> b <= a -> kgt C b.
Proof. unfold kgt; intros H L. eapply Forall_impl; [|exact H]; simpl; intros; lia. Qed.

(* the end point phase: afterwards the list is AB ++ E ++ C' where E is the
   list of points that survive at ke *)
Lemma end_point_form AB C ke val a b :
  sorted ((AB ++ [(a,b)]) ++ C) -> klt (AB ++ [(a,b)]) ke -> kge C ke ->
  exists o M, at_end (AB ++ [(a,b)]) C ke = Some o /\
    end_point V veq ((AB ++ [(a,b)]) ++ C) ke val
      = Some (((AB ++ [(a,b)]) ++ M) ++ end_pt ke val o ++ drop_key C ke,
              hd_key (end_pt ke val o ++ drop_key C ke)) /\ klt M (ke+1) /\ kge M ke /\ kgt (drop_key C ke) ke /\
       sorted (((AB ++ [(a,b)]) ++ M) ++ end_pt ke val o ++ drop_key C ke).
Proof.
  intros Hs Hlt Hge. unfold end_point. set (X := AB ++ [(a,b)]) in *.
  rewrite lower_bound_app by exact Hlt. rewrite (lower_bound_ge C) by exact Hge.
  destruct C as [|[c w] C]; simpl hd_key.
  - (* no later point *)
    simpl at_end. unfold X at 1 2. rewrite lastv_snoc. exists b.
    exists []. split; [reflexivity|].
    assert (HP : prev V (X ++ []) None = Some a).
    { unfold X. change None with (hd_key []). apply prev_snoc. exact Hs. }
    cbv beta iota zeta. rewrite HP.
    assert (HG : get V (X ++ []) a = Some b).
    { rewrite app_nil_r. unfold X. apply get_mid. apply sorted_app in Hs. destruct Hs as (Hs & _ & _).
      apply sorted_app in Hs. destruct Hs as (_ & _ & Hs). apply Forall_forall. intros p Hp.
      apply (Hs p (a,b)); [exact Hp|left; reflexivity]. }
    rewrite HG. simpl drop_key. unfold end_pt. rewrite !app_nil_r in *.
    destruct (veq_spec b val) as [E|N]; simpl.
    + rewrite app_nil_r. repeat split; auto; constructor.
    + rewrite HP, HG. destruct (veq_spec b val); [contradiction|]. simpl.
      assert (HI : insert V X ke b = X ++ [(ke, b)]).
      { rewrite <- (app_nil_r X) at 1. apply insert_app; [exact Hlt|constructor]. }
      rewrite HI. repeat split; try constructor.
      apply sorted_app. repeat split; [exact Hs|repeat constructor|].
      intros p q Hp [<-|[]]. simpl. apply (klt_in _ _ _ Hlt Hp).
  - assert (Hc : ke <= c) by (inversion Hge; assumption).
    assert (HgC : kgt C c).
    { apply sorted_app in Hs. destruct Hs as (_ & Hs & _). eapply sorted_tail_gt; exact Hs. }
    assert (HXc : klt X c) by (eapply klt_trans; [exact Hlt|exact Hc]).
    assert (Hget : get V (X ++ (c,w) :: C) c = Some w) by (apply get_mid; exact HXc).
    cbv beta iota zeta. rewrite Hget. simpl same_key. simpl at_end. simpl drop_key.
    assert (HP : prev V (X ++ (c,w) :: C) (Some c) = Some a).
    { unfold X. change (Some c) with (hd_key ((c,w)::C)). apply prev_snoc. exact Hs. }
    assert (HG : get V (X ++ (c,w)::C) a = Some b).
    { unfold X. rewrite <- app_assoc. apply get_mid. apply sorted_app in Hs. destruct Hs as (Hs & _ & _).
      apply sorted_app in Hs. destruct Hs as (_ & _ & Hs). apply Forall_forall. intros p Hp.
      apply (Hs p (a,b)); [exact Hp|left; reflexivity]. }
    destruct (Z.eqb_spec c ke) as [->|Nc].
    + rewrite Z.ltb_irrefl. simpl. exists w. unfold end_pt.
      destruct (veq_spec w val) as [E|N]; simpl.
      * exists [(ke,w)]. split; [reflexivity|]. split.
        { f_equal. f_equal.
          - rewrite <- app_assoc. reflexivity.
          - unfold next. rewrite upper_bound_app by (eapply Forall_impl; [|exact HXc]; simpl; intros; lia).
            simpl. rewrite Z.leb_refl. apply upper_bound_gt. exact HgC. }
        repeat split; [constructor; simpl; [lia|constructor]|constructor; simpl; [lia|constructor]|exact HgC|].
        rewrite <- app_assoc. exact Hs.
      * exists []. split; [reflexivity|]. split; [|repeat split; try constructor; try exact HgC].
        { rewrite HP, HG. rewrite app_nil_r, Z.ltb_irrefl. reflexivity. }
        { rewrite app_nil_r. exact Hs. }
    + assert (Hc' : ke < c) by lia.
      destruct (Z.ltb_spec c ke); [lia|]. destruct (Z.ltb_spec ke c); [|lia]. simpl.
      rewrite HP, HG. unfold X at 1. rewrite lastv_snoc. exists b, [].
      split; [reflexivity|]. rewrite app_nil_r. unfold end_pt.
      destruct (veq_spec b val) as [E|N]; simpl.
      * split; [rewrite orb_true_r; reflexivity|].
        split; [constructor|]. split; [constructor|]. split; [|exact Hs].
        constructor; [simpl; lia|]. eapply kgt_trans; [exact HgC|lia].
      * assert (HI : insert V (X ++ (c,w)::C) ke b = X ++ (ke, b) :: (c,w) :: C).
        { apply insert_app; [exact Hlt|]. constructor; [simpl; lia|]. eapply kgt_trans; [exact HgC|lia]. }
        rewrite HI. split.
        { destruct (Z.ltb_spec ke c); [|lia]. rewrite (orb_true_r (c <? ke)). reflexivity. }
        split; [constructor|]. split; [constructor|]. split.
        { constructor; [simpl; lia|]. eapply kgt_trans; [exact HgC|lia]. }
        { apply sorted_app in Hs. destruct Hs as (H1 & H2 & H3).
          apply sorted_app. repeat split; [exact H1| |].
          - constructor; [exact H2|]. constructor; [simpl; lia|]. eapply kgt_trans; [exact HgC|simpl; lia].
          - intros p q Hp [<-|Hq]; [simpl; apply (klt_in _ _ _ Hlt Hp)|apply H3; assumption]. }
Qed.

Lemma hd_key_app (X Y : imap) : hd_key (X ++ Y) = match hd_key X with Some k => Some k | None => hd_key Y end.
Proof. destruct X as [|[? ?] ?]; reflexivity. Qed.

Lemma in_range_below a b k : k < a -> in_range (Some a) b k = false.
Proof. intros H. unfold in_range. destruct (Z.leb_spec a k); [lia|reflexivity]. Qed.

(* everything in X ++ M ++ T between the successor of X's last point and T is erased *)
Lemma erase_form X M T : sorted (X ++ M ++ T) ->
  erase_range V (X ++ M ++ T) (hd_key (M ++ T)) (hd_key T) = X ++ T.
Proof.
  intros H. unfold erase_range.
  apply sorted_app in H. destruct H as (HX & HMT & HXMT).
  pose proof HMT as HMT0. apply sorted_app in HMT. destruct HMT as (HM & HT & HMTlt).
  assert (HTf : forall p, In p T -> in_range (hd_key (M ++ T)) (hd_key T) (fst p) = false).
  { intros p Hp. destruct T as [|[t w] T]; [destruct Hp|]. rewrite hd_key_app.
    unfold in_range. destruct (match hd_key M with Some k => Some k | None => hd_key ((t,w)::T) end); [|reflexivity].
    simpl. destruct (Z.ltb_spec (fst p) t) as [L|G]; [|apply andb_false_r].
    destruct Hp as [<-|Hp]; [simpl in L; lia|]. inversion HT as [|? ? ? HF]; subst. rewrite Forall_forall in HF.
    specialize (HF _ Hp). simpl in HF. lia. }
  assert (HXf : forall p, In p X -> in_range (hd_key (M ++ T)) (hd_key T) (fst p) = false).
  { intros p Hp. destruct (M ++ T) as [|[a w] R] eqn:E; [reflexivity|]. simpl hd_key at 1.
    apply in_range_below. apply (HXMT p (a,w)); [exact Hp|left; reflexivity]. }
  assert (HMf : forall p, In p M -> in_range (hd_key (M ++ T)) (hd_key T) (fst p) = true).
  { intros p Hp. destruct M as [|[a w] M]; [destruct Hp|]. simpl hd_key. unfold in_range.
    apply andb_true_iff. split.
    - apply Z.leb_le. destruct Hp as [<-|Hp]; [simpl; lia|]. inversion HM as [|? ? ? HF]; subst.
      rewrite Forall_forall in HF. specialize (HF _ Hp). simpl in HF. lia.
    - destruct T as [|[t u] T]; [reflexivity|]. simpl. apply Z.ltb_lt.
      apply (HMTlt p (t,u)); [exact Hp|left; reflexivity]. }
  rewrite !filter_app.
  rewrite (filter_all _ X) by (apply Forall_forall; intros p Hp; rewrite (HXf p Hp); reflexivity).
  rewrite (filter_none _ M) by (apply Forall_forall; intros p Hp; rewrite (HMf p Hp); reflexivity).
  rewrite (filter_all _ T) by (apply Forall_forall; intros p Hp; rewrite (HTf p Hp); reflexivity).
  reflexivity.
Qed.

Lemma next_form X k v T : klt X k -> kgt T k -> next V (X ++ (k,v) :: T) k = hd_key T.
Proof.
  intros HX HT. unfold next. rewrite upper_bound_app by (eapply Forall_impl; [|exact HX]; simpl; intros; lia).
  simpl. rewrite Z.leb_refl. apply upper_bound_gt; exact HT.
Qed.

Definition begin_pts (A : imap) (kb : Z) (val : V) : imap := A ++ opt_pt kb val (lastv A None).

(* the begin point phase followed by the erase *)
Lemma begin_erase_form A M T kb val :
  sorted (A ++ M ++ T) -> klt A kb -> kge M kb -> kgt T kb ->
  exists m2 b, begin_point V veq (A ++ M ++ T) kb val = Some (m2, b) /\
    erase_range V m2 (next V m2 b) (hd_key T) = begin_pts A kb val ++ T.
Proof.
  intros Hs HA HM HT. unfold begin_point.
  assert (HMT : kge (M ++ T) kb).
  { apply Forall_app. split; [exact HM|]. eapply Forall_impl; [|exact HT]; simpl; intros; lia. }
  rewrite lower_bound_app by exact HA. rewrite (lower_bound_ge (M ++ T)) by exact HMT.
  unfold begin_pts.
  (* the case where a point must be written at kb *)
  assert (Hput : exists m2 b,
      (if same_key (hd_key (M ++ T)) kb then Some (set V (A ++ M ++ T) kb val, kb)
       else Some (insert V (A ++ M ++ T) kb val, kb)) = Some (m2, b) /\
      erase_range V m2 (next V m2 b) (hd_key T) = (A ++ [(kb,val)]) ++ T).
  { destruct M as [|[c w] M].
    - simpl app. assert (E : same_key (hd_key T) kb = false).
      { destruct HT as [|[t u] T Ht HT]; [reflexivity|]. simpl in *.
        destruct (Z.ltb_spec kb t); [|lia]. rewrite orb_true_r. reflexivity. }
      rewrite E. rewrite insert_app by assumption. eexists _, _. split; [reflexivity|].
      rewrite next_form by assumption.
      change (hd_key T) with (hd_key ([] ++ T)) at 1. rewrite <- (app_assoc A [(kb,val)] T).
      change (A ++ (kb,val)::T) with (A ++ [(kb,val)] ++ T).
      rewrite (app_assoc A [(kb,val)] T). change T with ([] ++ T) at 1. apply erase_form.
      simpl. rewrite <- app_assoc. simpl in Hs. apply sorted_app in Hs. destruct Hs as (H1 & H2 & H3).
      apply sorted_app. repeat split; [exact H1|constructor; [exact H2|exact HT]|].
      intros p q Hp [<-|Hq]; [apply (klt_in _ _ _ HA Hp)|apply H3; assumption].
    - assert (Hc : kb <= c) by (inversion HM; assumption). simpl hd_key. simpl same_key.
      destruct (Z.eq_dec c kb) as [->|Nc].
      + rewrite Z.ltb_irrefl. simpl. rewrite set_app by exact HA. eexists _, _. split; [reflexivity|].
        assert (HgM : kgt (M ++ T) kb).
        { apply sorted_app in Hs. destruct Hs as (_ & Hs & _). eapply sorted_tail_gt. exact Hs. }
        rewrite next_form by assumption.
        change (A ++ (kb,val) :: M ++ T) with (A ++ [(kb,val)] ++ M ++ T). rewrite (app_assoc A).
        apply erase_form. rewrite <- app_assoc. apply sorted_app in Hs. destruct Hs as (H1 & H2 & H3).
        apply sorted_app. repeat split; [exact H1| |].
        * simpl. simpl in H2. inversion H2; subst. constructor; assumption.
        * intros p q Hp [<-|Hq]; [apply (klt_in _ _ _ HA Hp)|apply H3; [exact Hp|right; exact Hq]].
      + destruct (Z.ltb_spec kb c) as [_|]; [|lia]. rewrite orb_true_r. simpl.
        assert (HgM : kgt ((c,w) :: M ++ T) kb).
        { constructor; [simpl; lia|]. apply sorted_app in Hs. destruct Hs as (_ & Hs & _).
          apply sorted_tail_gt in Hs. eapply kgt_trans; [exact Hs|lia]. }
        rewrite insert_app by assumption. eexists _, _. split; [reflexivity|].
        rewrite next_form by assumption.
        change (A ++ (kb,val) :: (c,w) :: M ++ T) with (A ++ [(kb,val)] ++ ((c,w) :: M) ++ T).
        change ((c,w) :: M ++ T) with (((c,w) :: M) ++ T). rewrite (app_assoc A).
        apply erase_form. rewrite <- app_assoc. apply sorted_app in Hs. destruct Hs as (H1 & H2 & H3).
        apply sorted_app. repeat split; [exact H1| |].
        * constructor; [exact H2|exact HgM].
        * intros p q Hp [<-|Hq]; [apply (klt_in _ _ _ HA Hp)|apply H3; assumption]. }
  destruct A as [|pA A0] using rev_ind.
  - (* begin *)
    assert (E : is_begin V ([] ++ M ++ T) (hd_key (M ++ T)) = true).
    { simpl. destruct (M ++ T) as [|[? ?] ?]; [reflexivity|simpl; apply Z.eqb_refl]. }
    rewrite E. exact Hput.
  - clear IHA0. destruct pA as [a b].
    assert (E : is_begin V ((A0 ++ [(a,b)]) ++ M ++ T) (hd_key (M ++ T)) = false).
    { rewrite <- app_assoc. apply Forall_app in HA. destruct HA as [HA0 Ha]. inversion Ha as [|? ? Hab]; subst. simpl in Hab.
      destruct A0 as [|[p q] A0].
      - simpl. destruct (M ++ T) as [|[? ?] ?] eqn:E; [reflexivity|]. simpl. apply Z.eqb_neq.
        inversion HMT; subst. simpl in *. lia.
      - simpl. destruct (M ++ T) as [|[? ?] ?] eqn:E; [reflexivity|]. simpl. apply Z.eqb_neq.
        inversion HMT; subst. inversion HA0; subst. simpl in *. lia. }
    rewrite E. rewrite prev_snoc by exact Hs.
    assert (HG : get V ((A0 ++ [(a,b)]) ++ M ++ T) a = Some b).
    { rewrite <- app_assoc. apply get_mid. apply sorted_app in Hs. destruct Hs as (Hs & _ & _).
      apply sorted_app in Hs. destruct Hs as (_ & _ & Hs). apply Forall_forall. intros p Hp.
      apply (Hs p (a,b)); [exact Hp|left; reflexivity]. }
    rewrite HG. rewrite lastv_snoc. unfold opt_pt.
    destruct (veq_spec b val) as [Eb|Nb].
    + eexists _, _. split; [reflexivity|]. rewrite app_nil_r.
      assert (Hn : next V ((A0 ++ [(a,b)]) ++ M ++ T) a = hd_key (M ++ T)).
      { rewrite <- app_assoc. apply next_form.
        - apply sorted_app in Hs. destruct Hs as (Hs & _ & _).
          apply sorted_app in Hs. destruct Hs as (_ & _ & Hs). apply Forall_forall. intros p Hp.
          apply (Hs p (a,b)); [exact Hp|left; reflexivity].
        - apply Forall_forall. intros p Hp. apply sorted_app in Hs. destruct Hs as (_ & _ & Hs).
          apply (Hs (a,b) p); [apply in_or_app; right; left; reflexivity|exact Hp]. }
      rewrite Hn. apply erase_form. exact Hs.
    + exact Hput.
Qed.

(* explicit result of assign *)
Lemma assign_form A B C kb ke val :
  kb < ke -> sorted (A ++ B ++ C) -> klt A kb -> kge B kb -> klt B ke -> kge C ke -> A ++ B <> [] ->
  exists o, at_end (A ++ B) C ke = Some o /\
    assign V veq (A ++ B ++ C) kb ke val = Some (begin_pts A kb val ++ end_pt ke val o ++ drop_key C ke).
Proof.
  intros L Hs HA HB HBe HC Hne. unfold assign. destruct (Z.ltb_spec kb ke); [|lia].
  destruct (exists_last Hne) as (AB & [a b] & EAB).
  assert (HABlt : klt (A ++ B) ke).
  { apply Forall_app; split; [eapply klt_trans; [exact HA|lia]|exact HBe]. }
  rewrite app_assoc in Hs. rewrite app_assoc.
  rewrite EAB in *.
  destruct (end_point_form AB C ke val a b Hs HABlt HC) as (o & M & Ho & He & HMlt & HMge & HCd & Hs2).
  exists o. split; [exact Ho|]. rewrite He.
  rewrite <- EAB in Hs2 |- *.
  rewrite <- !app_assoc in Hs2 |- *.
  assert (HT : kgt (end_pt ke val o ++ drop_key C ke) kb).
  { apply Forall_app; split.
    - unfold end_pt. destruct (veq o val); constructor; [simpl; lia|constructor].
    - eapply kgt_trans; [exact HCd|lia]. }
  assert (HM' : kge (B ++ M) kb).
  { apply Forall_app; split; [exact HB|]. eapply Forall_impl; [|exact HMge]; simpl; intros; lia. }
  rewrite (app_assoc B M) in Hs2 |- *.
  destruct (begin_erase_form A (B ++ M) (end_pt ke val o ++ drop_key C ke) kb val Hs2 HA HM' HT) as (m2 & b2 & E1 & E2).
  rewrite E1, E2. reflexivity.
Qed.

(* ---- denotation ---- *)
Lemma read_form X Y k : sorted (X ++ Y) -> Forall (fun p => fst p <= k) X -> kgt Y k -> read V (X ++ Y) k = lastv X None.
Proof.
  intros Hs HX HY. unfold read. rewrite upper_bound_app by exact HX. rewrite upper_bound_gt by exact HY.
  destruct X as [|[a b] X0] using rev_ind.
  - unfold prev. simpl. destruct Y as [|[y v] Y]; [reflexivity|].
    simpl. rewrite Z.ltb_irrefl. replace (filter _ Y) with (@nil (Z*V)); [reflexivity|].
    symmetry. apply filter_none. apply Forall_forall. intros p Hp. apply Z.ltb_ge.
    simpl in Hs. apply sorted_tail_gt in Hs. unfold kgt in Hs. rewrite Forall_forall in Hs. specialize (Hs _ Hp). lia.
  - clear IHX0. rewrite prev_snoc by exact Hs. rewrite lastv_snoc.
    rewrite <- app_assoc. apply get_mid. apply sorted_app in Hs. destruct Hs as (Hs & _ & _).
    apply sorted_app in Hs. destruct Hs as (_ & _ & Hs). apply Forall_forall. intros p Hp.
    apply (Hs p (a,b)); [exact Hp|left; reflexivity].
Qed.

(* a recursive reading that is easier to reason with *)
Fixpoint den (m : imap) (x : Z) (acc : option V) : option V :=
  match m with
  | [] => acc
  | (k,v)::t => if k <=? x then den t x (Some v) else acc
  end.
Lemma den_app_le X Y x acc : Forall (fun p => fst p <= x) X -> den (X ++ Y) x acc = den Y x (lastv X acc).
Proof.
  intros H; revert acc; induction H as [|[a b] X Hx HX IH]; intros acc; simpl in *; [reflexivity|].
  destruct (Z.leb_spec a x); [apply IH|lia].
Qed.
Lemma den_gt Y x acc : kgt Y x -> den Y x acc = acc.
Proof. intros H; destruct H as [|[a b] Y Hy HY]; simpl in *; [reflexivity|]. destruct (Z.leb_spec a x); [lia|reflexivity]. Qed.
Lemma den_app_gt X Y x acc : sorted (X ++ Y) -> kgt Y x -> den (X ++ Y) x acc = den X x acc.
Proof.
  revert acc; induction X as [|[a b] X IH]; intros acc Hs HY; simpl in *; [apply den_gt; exact HY|].
  inversion Hs; subst. destruct (Z.leb_spec a x); [apply IH; assumption|reflexivity].
Qed.
Lemma split_le (m : imap) k : sorted m -> exists X Y, m = X ++ Y /\ Forall (fun p => fst p <= k) X /\ kgt Y k.
Proof.
  intros H. destruct (split_at m (k+1) H) as (X & Y & -> & HX & HY). exists X, Y. repeat split.
  - eapply Forall_impl; [|exact HX]; simpl; intros; lia.
  - eapply Forall_impl; [|exact HY]; simpl; intros; lia.
Qed.
Lemma read_den m k : sorted m -> read V m k = den m k None.
Proof.
  intros H. destruct (split_le m k H) as (X & Y & -> & HX & HY).
  rewrite (read_form X Y k H HX HY), den_app_le by exact HX. rewrite den_gt by exact HY. reflexivity.
Qed.

Lemma den_acc_irrel m x a b : (exists k v t, m = (k,v)::t /\ k <= x) -> den m x a = den m x b.
Proof. intros (k & v & t & -> & L). simpl. destruct (Z.leb_spec k x); [reflexivity|lia]. Qed.

Lemma lastv_nonempty X a b : X <> [] -> lastv X a = lastv X b.
Proof. destruct X as [|[k v] X]; [congruence|reflexivity]. Qed.

Lemma lastv_app X Y d : lastv (X ++ Y) d = lastv Y (lastv X d).
Proof. unfold lastv. apply fold_left_app. Qed.

Definition wf (lo : Z) (m : imap) := sorted m /\ exists v t, m = (lo,v)::t.

Lemma den_begin_pts A kb val x Y acc :
  klt A kb -> kb <= x -> den (begin_pts A kb val ++ Y) x acc = den Y x (Some val) \/ (A = [] /\ False).
Proof.
  intros HA L. left. unfold begin_pts. rewrite den_app_le.
  - f_equal. rewrite lastv_app. destruct A as [|[a b] A0] using rev_ind.
    + simpl. reflexivity.
    + rewrite !lastv_snoc. unfold opt_pt. destruct (veq_spec b val) as [->|N]; reflexivity.
  - apply Forall_app; split; [eapply Forall_impl; [|exact HA]; simpl; intros; lia|].
    unfold opt_pt. destruct (lastv A None) as [o|]; [destruct (veq o val)|]; constructor; simpl; try lia; constructor.
Qed.

Lemma sorted_begin_pts A kb val : sorted A -> klt A kb -> sorted (begin_pts A kb val) /\ Forall (fun p => fst p <= kb) (begin_pts A kb val).
Proof.
  intros Hs HA. unfold begin_pts.
  assert (HH : opt_pt kb val (lastv A None) = [] \/ opt_pt kb val (lastv A None) = [(kb,val)]).
  { unfold opt_pt. destruct (lastv A None) as [o|]; [destruct (veq o val)|]; auto. }
  destruct HH as [-> | ->].
  - rewrite app_nil_r. split; [exact Hs|]. eapply Forall_impl; [|exact HA]; simpl; intros; lia.
  - split.
    + apply sorted_app. repeat split; [exact Hs|repeat constructor|].
      intros p q Hp [<-|[]]. apply (klt_in _ _ _ HA Hp).
    + apply Forall_app; split; [eapply Forall_impl; [|exact HA]; simpl; intros; lia|]. constructor; [simpl; lia|constructor].
Qed.

Lemma sorted_drop C ke : sorted C -> kge C ke -> sorted (drop_key C ke) /\ kgt (drop_key C ke) ke.
Proof.
  intros Hs HC. destruct C as [|[c w] C]; simpl; [split; constructor|].
  pose proof (sorted_tail_gt _ _ _ Hs) as Hg. inversion HC; subst. simpl in *.
  destruct (Z.eqb_spec c ke) as [->|N].
  - split; [inversion Hs; assumption|exact Hg].
  - split; [exact Hs|]. constructor; [simpl; lia|]. eapply kgt_trans; [exact Hg|lia].
Qed.

Lemma sorted_result A C kb ke val o :
  kb < ke -> sorted A -> klt A kb -> sorted C -> kge C ke ->
  sorted (begin_pts A kb val ++ end_pt ke val o ++ drop_key C ke).
Proof.
  intros L HsA HA HsC HC.
  destruct (sorted_begin_pts A kb val HsA HA) as [HsB HB].
  destruct (sorted_drop C ke HsC HC) as [HsD HD].
  apply sorted_app. repeat split; [exact HsB| |].
  - apply sorted_app. repeat split; [unfold end_pt; destruct (veq o val); repeat constructor|exact HsD|].
    intros p q Hp Hq. unfold kgt in HD. rewrite Forall_forall in HD. specialize (HD _ Hq).
    unfold end_pt in Hp. destruct (veq o val); [destruct Hp|]. destruct Hp as [<-|[]]. exact HD.
  - intros p q Hp Hq. rewrite Forall_forall in HB. specialize (HB _ Hp).
    assert (ke <= fst q); [|lia]. apply in_app_or in Hq. destruct Hq as [Hq|Hq].
    + unfold end_pt in Hq. destruct (veq o val); [destruct Hq|]. destruct Hq as [<-|[]]; simpl; lia.
    + unfold kgt in HD. rewrite Forall_forall in HD. specialize (HD _ Hq). lia.
Qed.

(* one assign: defined, well-formed, pointwise update *)
Lemma assign_correct lo m kb ke val :
  wf lo m -> lo <= kb ->
  exists m', assign V veq m kb ke val = Some m' /\ wf lo m' /\
    forall x, read V m' x = if (kb <=? x) && (x <? ke) then Some val else read V m x.
Proof.
  intros [Hs (v0 & t0 & Em)] Hlo.
  destruct (Z.lt_ge_cases kb ke) as [L|G].
  2:{ exists m. unfold assign. destruct (Z.ltb_spec kb ke); [lia|]. repeat split; eauto.
      intros x. destruct (Z.leb_spec kb x), (Z.ltb_spec x ke); simpl; try reflexivity; lia. }
  destruct (split3 m kb ke Hs L) as (A & B & C & E & HA & HB & HBe & HC).
  assert (Hne : A ++ B <> []).
  { intros E0. destruct (app_eq_nil _ _ E0) as [-> ->]. simpl in E. subst C. rewrite Em in HC.
    inversion HC; subst. simpl in *. lia. }
  subst m. rewrite E in Hs.
  destruct (assign_form A B C kb ke val L Hs HA HB HBe HC Hne) as (o & Ho & Ea).
  rewrite E, Ea. eexists. split; [reflexivity|].
  pose proof Hs as Hs0. apply sorted_app in Hs. destruct Hs as (HsA & HsBC & HABC).
  apply sorted_app in HsBC. destruct HsBC as (HsB & HsC & HBClt).
  pose proof (sorted_result A C kb ke val o L HsA HA HsC HC) as Hsr.
  split.
  - split; [exact Hsr|]. destruct A as [|[a b] A].
    + unfold begin_pts. simpl. destruct B as [|[b0 w0] B]; [exfalso; apply Hne; reflexivity|].
      simpl in E. injection E as E1 E2 E3. pose proof (Forall_inv HB) as HB0. simpl in HB0.
      replace kb with lo by lia. eexists _, _. reflexivity.
    + simpl in E. injection E as E1 E2 E3. subst a. unfold begin_pts. simpl. eexists _, _. reflexivity.
  - intros x. rewrite (read_den _ x Hsr), (read_den _ x Hs0).
    destruct (sorted_drop C ke HsC HC) as [HsD HD].
    destruct (Z.leb_spec kb x) as [Lx|Gx].
    + destruct (den_begin_pts A kb val x (end_pt ke val o ++ drop_key C ke) None HA Lx) as [-> | [_ []]].
      destruct (Z.ltb_spec x ke) as [Lx2|Gx2]; simpl.
      * (* inside *)
        apply den_gt. apply Forall_app; split.
        -- unfold end_pt. destruct (veq o val); constructor; [simpl; lia|constructor].
        -- eapply kgt_trans; [exact HD|lia].
      * (* right of ke *)
        assert (HABle : Forall (fun p => fst p <= x) (A ++ B)).
        { apply Forall_app; split; [eapply Forall_impl; [|exact HA]|eapply Forall_impl; [|exact HBe]]; simpl; intros; lia. }
        rewrite (app_assoc A), (den_app_le (A ++ B)) by exact HABle.
        rewrite den_app_le.
        2:{ unfold end_pt. destruct (veq o val); constructor; [simpl; lia|constructor]. }
        assert (El : lastv (end_pt ke val o) (Some val) = Some o).
        { unfold end_pt. destruct (veq_spec o val) as [->|N]; reflexivity. }
        rewrite El. destruct C as [|[c w] C]; simpl in Ho |- *.
        -- congruence.
        -- destruct (Z.eqb_spec c ke) as [->|N].
           ++ destruct (Z.leb_spec ke x); [|lia]. congruence.
           ++ simpl. rewrite <- Ho. reflexivity.
    + (* left of kb *)
      simpl.
      assert (Hgt : kgt (end_pt ke val o ++ drop_key C ke) x).
      { apply Forall_app; split.
        - unfold end_pt. destruct (veq o val); constructor; [simpl; lia|constructor].
        - eapply kgt_trans; [exact HD|lia]. }
      rewrite den_app_gt by assumption.
      assert (HBCgt : kgt (B ++ C) x).
      { apply Forall_app; split; [eapply Forall_impl; [|exact HB]|eapply Forall_impl; [|exact HC]]; simpl; intros; lia. }
      rewrite (den_app_gt A (B ++ C) x None Hs0 HBCgt).
      unfold begin_pts. apply den_app_gt.
      * apply sorted_app in Hsr. destruct Hsr as (Hsr & _). exact Hsr.
      * unfold opt_pt. destruct (lastv A None) as [o'|]; [destruct (veq o' val)|]; constructor; simpl; try lia; constructor.
Qed.

Lemma init_wf lo d : wf lo (init V lo d).
Proof. split; [repeat constructor|eexists _, _; reflexivity]. Qed.

Lemma run_correct lo m cs :
  wf lo m -> Forall (fun c => lo <= cbeg c) cs ->
  exists m', run V veq m cs = Some m' /\ wf lo m' /\
    forall x d, read V m x = Some d -> read V m' x = Some (spec_read V d cs x).
Proof.
  intros Hwf H; revert m Hwf; induction H as [|c cs Hc Hcs IH]; intros m Hwf; simpl.
  - exists m. repeat split; [apply Hwf|apply Hwf|auto].
  - destruct (assign_correct lo m (cbeg c) (cend c) (cval c) Hwf Hc) as (m1 & E1 & Hwf1 & R1).
    rewrite E1. destruct (IH m1 Hwf1) as (m' & E & Hwf' & R). exists m'. repeat split; [exact E|apply Hwf'|apply Hwf'|].
    intros x d Hd. apply R. rewrite R1. unfold spec_read. simpl.
    destruct ((cbeg c <=? x) && (x <? cend c)); [reflexivity|exact Hd].
Qed.

Lemma run_init lo d cs :
  Forall (fun c => lo <= cbeg c) cs ->
  exists m, run V veq (init V lo d) cs = Some m /\
    forall x, lo <= x -> read V m x = Some (spec_read V d cs x).
Proof.
  intros H. destruct (run_correct lo _ cs (init_wf lo d) H) as (m & E & _ & R).
  exists m. split; [exact E|]. intros x Hx. apply R. unfold read, init. simpl.
  destruct (Z.leb_spec lo x); [|lia]. unfold prev. simpl. rewrite Z.eqb_refl. reflexivity.
Qed.

(* ---- canonical form ---- *)
Lemma canonical_from_sorted k v m : canonical_from V k v m -> sorted ((k,v)::m).
Proof.
  revert k v; induction m as [|[k' v'] m IH]; intros k v H; simpl in *; [repeat constructor|].
  destruct H as (L & N & H). specialize (IH _ _ H). constructor; [exact IH|].
  constructor; [exact L|]. eapply kgt_trans; [eapply sorted_tail_gt; exact IH|simpl; lia].
Qed.
Lemma canonical_wf lo m : canonical V lo m -> wf lo m.
Proof.
  destruct m as [|[k v] m]; simpl; [tauto|]. intros [-> H]. split; [apply canonical_from_sorted; exact H|eauto].
Qed.

(* values change from point to point *)
Fixpoint chg (o : option V) (m : imap) : Prop :=
  match m with
  | [] => True
  | (k,v)::t => Some v <> o /\ chg (Some v) t
  end.
Lemma chg_app X Y o : chg o (X ++ Y) <-> chg o X /\ chg (lastv X o) Y.
Proof.
  revert o; induction X as [|[k v] X IH]; intros o; simpl; [tauto|]. rewrite IH. unfold lastv. simpl. tauto.
Qed.
Lemma canonical_from_chg k v m : canonical_from V k v m <-> sorted ((k,v)::m) /\ chg (Some v) m.
Proof.
  split.
  - intros H. split; [apply canonical_from_sorted; exact H|]. revert k v H.
    induction m as [|[k' v'] m IH]; intros k v H; simpl in *; [exact I|].
    destruct H as (L & N & H). split; [congruence|eapply IH; exact H].
  - revert k v. induction m as [|[k' v'] m IH]; intros k v [Hs H]; simpl in *; [exact I|].
    destruct H as [N H]. inversion Hs as [|? ? Hs1 Hs2]; subst. inversion Hs2; subst. simpl in *.
    repeat split; [assumption|congruence|apply IH; split; assumption].
Qed.
Lemma canonical_chg lo m : canonical V lo m <-> wf lo m /\ chg None m.
Proof.
  destruct m as [|[k v] m]; simpl.
  - split; [tauto|]. intros [[_ (v & t & E)] _]. discriminate.
  - rewrite canonical_from_chg. split.
    + intros (-> & Hs & H). repeat split; [exact Hs|eauto|congruence|exact H].
    + intros ((Hs & v0 & t & E) & _ & H). inversion E; subst. repeat split; assumption.
Qed.

Lemma assign_canonical lo m kb ke val m' :
  canonical V lo m -> lo <= kb -> assign V veq m kb ke val = Some m' -> canonical V lo m'.
Proof.
  rewrite !canonical_chg. intros [Hwf Hchg] Hlo Ea.
  destruct (assign_correct lo m kb ke val Hwf Hlo) as (m1 & E1 & Hwf1 & _).
  rewrite Ea in E1; inversion E1; subst m1. split; [exact Hwf1|].
  destruct Hwf as [Hs (v0 & t0 & Em)].
  destruct (Z.lt_ge_cases kb ke) as [L|G].
  2:{ unfold assign in Ea. destruct (Z.ltb_spec kb ke); [lia|]. inversion Ea; subst. exact Hchg. }
  destruct (split3 m kb ke Hs L) as (A & B & C & E & HA & HB & HBe & HC).
  assert (Hne : A ++ B <> []).
  { intros E0. destruct (app_eq_nil _ _ E0) as [-> ->]. simpl in E. subst C. rewrite Em in HC.
    inversion HC; subst. simpl in *. lia. }
  subst m. rewrite E in *.
  destruct (assign_form A B C kb ke val L Hs HA HB HBe HC Hne) as (o & Ho & Ea').
  rewrite Ea' in Ea. inversion Ea; subst m'. clear Ea Ea' E1.
  rewrite app_assoc in Hchg.
  rewrite !chg_app in Hchg. destruct Hchg as ((HcA & HcB) & HcC).
  rewrite lastv_app in *.
  unfold begin_pts. rewrite !chg_app. rewrite !lastv_app.
  assert (Elast : lastv (opt_pt kb val (lastv A None)) (lastv A None) = Some val).
  { unfold opt_pt. destruct (lastv A None) as [o'|]; [destruct (veq_spec o' val) as [->|]|]; reflexivity. }
  rewrite Elast. repeat split; [exact HcA| | |].
  - unfold opt_pt. destruct (lastv A None) as [o'|]; [destruct (veq_spec o' val) as [->|N]|]; simpl; repeat split; congruence.
  - unfold end_pt. destruct (veq_spec o val) as [->|N]; simpl; repeat split; congruence.
  - assert (El : lastv (end_pt ke val o) (Some val) = Some o).
    { unfold end_pt. destruct (veq_spec o val) as [->|N]; reflexivity. }
    rewrite El. destruct C as [|[c w] C]; simpl in *; [exact I|].
    destruct (Z.eqb_spec c ke) as [->|N].
    + inversion Ho; subst. apply HcC.
    + simpl. rewrite lastv_app in Ho. rewrite <- Ho. exact HcC.
Qed.

Lemma run_canonical lo m cs m' :
  canonical V lo m -> Forall (fun c => lo <= cbeg c) cs -> run V veq m cs = Some m' -> canonical V lo m'.
Proof.
  intros Hc H; revert m Hc; induction H as [|c cs Hcc Hcs IH]; intros m Hc E; simpl in E; [congruence|].
  destruct (assign V veq m (cbeg c) (cend c) (cval c)) as [m1|] eqn:E1; [|discriminate].
  eapply IH; [|exact E]. eapply assign_canonical; eassumption.
Qed.
Lemma init_canonical lo d : canonical V lo (init V lo d).
Proof. simpl. auto. Qed.

(* canonical maps with the same reading are equal *)
Lemma den_none_some m x o : den m x o = None -> o = None.
Proof.
  revert o; induction m as [|[k v] m IH]; intros o H; simpl in *; [exact H|].
  destruct (k <=? x); [apply IH in H; discriminate|exact H].
Qed.

Lemma den_below k v m x o : sorted ((k,v)::m) -> x < k -> den ((k,v)::m) x o = o.
Proof. intros Hs L. simpl. destruct (Z.leb_spec k x); [lia|reflexivity]. Qed.

Lemma canonical_from_unique k v m1 m2 :
  canonical_from V k v m1 -> canonical_from V k v m2 ->
  (forall x, k <= x -> den m1 x (Some v) = den m2 x (Some v)) -> m1 = m2.
Proof.
  revert k v m2; induction m1 as [|[k1 v1] m1 IH]; intros k v m2 H1 H2 R.
  - destruct m2 as [|[k2 v2] m2]; [reflexivity|]. exfalso. destruct H2 as (L & N & H2).
    specialize (R k2 ltac:(lia)). simpl in R. rewrite ?Z.leb_refl in R.
    pose proof (sorted_tail_gt _ _ _ (canonical_from_sorted _ _ _ H2)) as G. rewrite den_gt in R by exact G. congruence.
  - destruct m2 as [|[k2 v2] m2].
    + exfalso. destruct H1 as (L & N & H1).
      specialize (R k1 ltac:(lia)). simpl in R. rewrite ?Z.leb_refl in R.
      pose proof (sorted_tail_gt _ _ _ (canonical_from_sorted _ _ _ H1)) as G. rewrite den_gt in R by exact G. congruence.
    + destruct H1 as (L1 & N1 & H1). destruct H2 as (L2 & N2 & H2).
      pose proof (sorted_tail_gt _ _ _ (canonical_from_sorted _ _ _ H1)) as G1.
      pose proof (sorted_tail_gt _ _ _ (canonical_from_sorted _ _ _ H2)) as G2.
      destruct (Z.lt_trichotomy k1 k2) as [L|[E|L]].
      * exfalso. specialize (R k1 ltac:(lia)). simpl in R. rewrite ?Z.leb_refl in R.
        rewrite den_gt in R by exact G1. destruct (Z.leb_spec k2 k1); [lia|]. congruence.
      * subst k2. assert (v1 = v2).
        { specialize (R k1 ltac:(lia)). simpl in R. rewrite ?Z.leb_refl in R.
          rewrite !den_gt in R by assumption. congruence. }
        subst v2. f_equal. eapply IH; [exact H1|exact H2|]. intros x Hx.
        specialize (R x ltac:(lia)). simpl in R. destruct (Z.leb_spec k1 x); [exact R|lia].
      * exfalso. specialize (R k2 ltac:(lia)). simpl in R. rewrite ?Z.leb_refl in R.
        rewrite (den_gt m2) in R by exact G2. destruct (Z.leb_spec k1 k2); [lia|]. congruence.
Qed.

Lemma canonical_unique lo m1 m2 :
  canonical V lo m1 -> canonical V lo m2 ->
  (forall x, lo <= x -> read V m1 x = read V m2 x) -> m1 = m2.
Proof.
  intros H1 H2 R.
  assert (R' : forall x, lo <= x -> den m1 x None = den m2 x None).
  { intros x Hx. rewrite <- !read_den by (apply (canonical_wf lo); assumption). apply R; exact Hx. }
  clear R. destruct m1 as [|[k1 v1] m1]; [destruct H1|]. destruct m2 as [|[k2 v2] m2]; [destruct H2|].
  destruct H1 as [-> H1]. destruct H2 as [-> H2].
  assert (v1 = v2).
  { specialize (R' lo ltac:(lia)). simpl in R'. rewrite Z.leb_refl in R'.
    pose proof (sorted_tail_gt _ _ _ (canonical_from_sorted _ _ _ H1)) as G1.
    pose proof (sorted_tail_gt _ _ _ (canonical_from_sorted _ _ _ H2)) as G2.
    rewrite !den_gt in R' by assumption. congruence. }
  subst v2. f_equal. eapply canonical_from_unique; [exact H1|exact H2|].
  intros x Hx. specialize (R' x Hx). simpl in R'. destruct (Z.leb_spec lo x); [exact R'|lia].
Qed.

Lemma runs_unique lo d cs1 cs2 m1 m2 :
  Forall (fun c => lo <= cbeg c) cs1 -> Forall (fun c => lo <= cbeg c) cs2 ->
  run V veq (init V lo d) cs1 = Some m1 -> run V veq (init V lo d) cs2 = Some m2 ->
  (forall x, lo <= x -> spec_read V d cs1 x = spec_read V d cs2 x) -> m1 = m2.
Proof.
  intros H1 H2 E1 E2 R.
  apply (canonical_unique lo).
  - eapply run_canonical; [apply init_canonical|exact H1|exact E1].
  - eapply run_canonical; [apply init_canonical|exact H2|exact E2].
  - intros x Hx. destruct (run_init lo d cs1 H1) as (m1' & E1' & R1). destruct (run_init lo d cs2 H2) as (m2' & E2' & R2).
    rewrite E1 in E1'. rewrite E2 in E2'. inversion E1'; inversion E2'; subst.
    rewrite R1, R2 by exact Hx. rewrite R by exact Hx. reflexivity.
Qed.

Lemma one_more_assign lo d cs m b e v :
  Forall (fun c => lo <= cbeg c) cs -> lo <= b ->
  run V veq (init V lo d) cs = Some m ->
  exists m', assign V veq m b e v = Some m' /\
    (forall k, b <= k < e -> read V m' k = Some v) /\
    (forall k, ~ (b <= k < e) -> read V m' k = read V m k).
Proof.
  intros H Hb E. destruct (run_correct lo _ cs (init_wf lo d) H) as (m1 & E1 & Hwf & _).
  rewrite E in E1. inversion E1; subst m1.
  destruct (assign_correct lo m b e v Hwf Hb) as (m' & E' & _ & R). exists m'. split; [exact E'|]. split.
  - intros k Hk. rewrite R. destruct (Z.leb_spec b k), (Z.ltb_spec k e); simpl; try reflexivity; lia.
  - intros k Hk. rewrite R. destruct (Z.leb_spec b k), (Z.ltb_spec k e); simpl; try reflexivity; lia.
Qed.
Lemma run_init_canonical lo d cs m :
  Forall (fun c => lo <= cbeg c) cs -> run V veq (init V lo d) cs = Some m -> canonical V lo m.
Proof. intros H E. eapply run_canonical; [apply init_canonical|exact H|exact E]. Qed.
End Proofs.
Lemma below_lowest : exists (lo d k : Z), k < lo /\ read Z (init Z lo d) k = None.
Proof. exists 0, 7, (-1). vm_compute. split; reflexivity. Qed.

