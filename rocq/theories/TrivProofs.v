(* Vectors of trivial elements do what vectors of other elements do. *)
From Coq Require Import List Bool Arith Lia.
From Verif Require Import VecModel VecWorld TrivModel.
Import ListNotations.

Set Default Proof Using "Type".
Section Sim.
Context {V : Type}.
Variable nomem : nat -> bool.
Variable half : nat.
Variable ptrs : nat -> bool.
Notation mem := (@mem V).
Notation src := (@src V).
Notation cell := (@cell V).
Notation nof := (fun _ : nat => false).

(* ---- lists ---- *)
Lemma put_len : forall (l : list cell) i c, length (put l i c) = length l.
Proof. induction l; intros [|i] c; simpl; auto. Qed.
Lemma put_nth : forall (l : list cell) i j c,
  nth_error (put l i c) j = if Nat.eqb i j then (if i <? length l then Some c else None) else nth_error l j.
Proof.
  induction l as [|x l IH]; intros i j c.
  - destruct i, j; simpl; auto. destruct (Nat.eqb i j); auto.
  - destruct i, j; simpl; auto. rewrite IH. destruct (Nat.eqb i j) eqn:E; auto.
Qed.
Lemma nth_len : forall (l : list cell) i c, nth_error l i = Some c -> i < length l.
Proof. intros l i c H. apply nth_error_Some. congruence. Qed.
Lemma nth_firstn : forall (l : list cell) n i, i < n -> nth_error (firstn n l) i = nth_error l i.
Proof. induction l; intros [|n] [|i] H; simpl; auto; try lia. apply IHl; lia. Qed.
Lemma nth_skipn : forall (l : list cell) n i, nth_error (skipn n l) i = nth_error l (n + i).
Proof. induction l; intros [|n] i; simpl; auto. destruct i; auto. Qed.
Lemma blit_len : forall (l seg : list cell) d, d + length seg <= length l -> length (blit l d seg) = length l.
Proof. intros. unfold blit. rewrite !app_length, firstn_length, skipn_length. lia. Qed.
Lemma blit_nth : forall (l seg : list cell) d i, d + length seg <= length l ->
  nth_error (blit l d seg) i = if (d <=? i) && (i <? d + length seg) then nth_error seg (i - d) else nth_error l i.
Proof.
  intros l seg d i H. unfold blit.
  destruct (Nat.leb_spec d i); destruct (Nat.ltb_spec i (d + length seg)); cbn [andb].
  - rewrite nth_error_app2; rewrite firstn_length, Nat.min_l by lia; [|lia]. rewrite nth_error_app1 by lia. auto.
  - rewrite nth_error_app2; rewrite firstn_length, Nat.min_l by lia; [|lia]. rewrite nth_error_app2 by lia.
    rewrite nth_skipn. f_equal; lia.
  - rewrite nth_error_app1; [apply nth_firstn; lia|]. rewrite firstn_length; lia.
  - lia.
Qed.

(* ---- the relation ---- *)
Definition covers (l lt : list cell) : Prop :=
  length lt = length l /\ forall i v, nth_error l i = Some (Some v) -> nth_error lt i = Some (Some v).
Definition Rel (m mt : mem) : Prop :=
  next mt = next m /\ tick mt = tick m /\
  (forall b, match blk m b, blk mt b with Some l, Some lt => covers l lt | None, None => True | _, _ => False end) /\
  (forall b, next m <= b -> blk m b = None).
Definition sim {A} (x xt : @out V A) : Prop :=
  match x with
  | Ok a m => exists mt, xt = Ok a mt /\ Rel m mt
  | Exc a m => exists mt, xt = Exc a mt /\ Rel m mt
  | Bad => True
  end.

Lemma rel_blk : forall m mt b l, Rel m mt -> blk m b = Some l -> exists lt, blk mt b = Some lt /\ covers l lt.
Proof. intros m mt b l (_ & _ & H & _) E. specialize (H b). rewrite E in H. destruct (blk mt b); [eauto|contradiction]. Qed.
Lemma rel_lt : forall m mt b l, Rel m mt -> blk m b = Some l -> b < next m.
Proof.
  intros m mt b l (_ & _ & _ & F) E. destruct (Nat.lt_ge_cases b (next m)); auto. rewrite F in E by auto. discriminate.
Qed.
Lemma rel_read : forall m mt s v, Rel m mt -> read m s = Some v -> read mt s = Some v.
Proof.
  intros m mt [x|b i] v R H; simpl in *; auto. destruct (blk m b) as [l|] eqn:E; [|discriminate].
  destruct (rel_blk m mt b l R E) as (lt & -> & _ & K).
  destruct (nth_error l i) as [[w|]|] eqn:N; try discriminate. rewrite (K i w N). auto.
Qed.
Lemma rel_step : forall m mt, Rel m mt -> Rel (step m) (step mt).
Proof. intros m mt (A & B & C & D). repeat split; cbn; auto. Qed.
Lemma rel_set : forall m mt b l lt, Rel m mt -> b < next m -> covers l lt -> Rel (set_blk m b (Some l)) (set_blk mt b (Some lt)).
Proof.
  intros m mt b l lt (A & B & C & D) L K. repeat split; cbn; auto.
  - intros b'. destruct (Nat.eqb_spec b' b); auto. apply C.
  - intros b' H. destruct (Nat.eqb_spec b' b); [lia|auto].
Qed.
Lemma rel_free : forall m mt b, Rel m mt -> Rel (set_blk m b None) (set_blk mt b None).
Proof.
  intros m mt b (A & B & C & D). repeat split; cbn; auto.
  - intros b'. destruct (Nat.eqb_spec b' b); auto. apply C.
  - intros b' H. destruct (Nat.eqb_spec b' b); auto.
Qed.

(* ---- element functions ---- *)
Lemma sim_construct : forall b i s m mt, Rel m mt -> sim (construct nof b i s m) (t_construct b i s mt).
Proof.
  intros b i s m mt R. unfold construct, t_construct. destruct (blk m b) as [l|] eqn:E; [|exact I].
  destruct (nth_error l i) as [[x|]|] eqn:N; try exact I. destruct (read m s) as [v|] eqn:S; [|exact I].
  destruct (rel_blk m mt b l R E) as (lt & Et & K). rewrite Et, (rel_read m mt s v R S). cbn [sim].
  pose proof (nth_len _ _ _ N) as Li. destruct K as [K1 K2].
  destruct (nth_error lt i) as [c|] eqn:Nt; [|apply nth_error_None in Nt; lia].
  eexists. split; [reflexivity|]. apply rel_step, rel_set; auto. { eapply rel_lt; eauto. }
  split; [rewrite !put_len; auto|]. intros j w. rewrite !put_nth. destruct (Nat.eqb i j); auto.
  destruct (Nat.ltb_spec i (length l)); [|discriminate]. destruct (Nat.ltb_spec i (length lt)); [auto|lia].
Qed.
Lemma rel_destroy1 : forall b i m mt m', Rel m mt -> destroy1 b i m = Ok tt m' -> Rel m' mt.
Proof.
  intros b i m mt m' R. unfold destroy1. destruct (blk m b) as [l|] eqn:E; [|discriminate].
  destruct (nth_error l i) as [[x|]|]; try discriminate. intros H. injection H as <-.
  pose proof (rel_lt _ _ _ _ R E) as Lb. destruct R as (A & B & C & D). repeat split; cbn; auto.
  - intros b'. specialize (C b'). destruct (Nat.eqb_spec b' b) as [->|]; auto. rewrite E in C.
    destruct (blk mt b) as [lt|]; auto. destruct C as [C1 C2]. split; [rewrite put_len; auto|].
    intros j w. rewrite put_nth. destruct (Nat.eqb i j); auto. destruct (i <? length l); discriminate.
  - intros b' H. destruct (Nat.eqb_spec b' b); [lia|auto].
Qed.
Lemma destroy1_noexc : forall b i (m : mem), match destroy1 b i m with Exc _ _ => False | _ => True end.
Proof. intros. unfold destroy1. destruct (blk m b); auto. destruct (nth_error l i) as [[|]|]; auto. Qed.
Lemma rel_destroy_n : forall n b i m mt, Rel m mt ->
  match destroy_n n b i m with Ok _ m' => Rel m' mt | Exc _ _ => False | Bad => True end.
Proof.
  induction n; intros b i m mt R; cbn [destroy_n]; auto.
  destruct (destroy1 b i m) as [[] m1|[] m1|] eqn:E; auto. apply IHn. eapply rel_destroy1; eauto.
Qed.
Lemma sim_destroy : forall b i j m mt, Rel m mt -> sim (destroy b i j m) (t_destroy b i j mt).
Proof.
  intros b i j m mt R. unfold destroy, t_destroy. destruct (j <? i); [exact I|].
  pose proof (rel_destroy_n (j - i) b i m mt R) as H. destruct (destroy_n _ _ _ _) as [[] m'|[] m'|]; [|contradiction|exact I].
  cbn. eauto.
Qed.
Lemma sim_destroy1 : forall b i m mt, Rel m mt -> sim (destroy1 b i m) (t_destroy1 b i mt).
Proof.
  intros b i m mt R. unfold t_destroy1. pose proof (destroy1_noexc b i m).
  destruct (destroy1 b i m) as [[] m'|[] m'|] eqn:E; [|contradiction|exact I]. cbn. exists mt. split; auto. eapply rel_destroy1; eauto.
Qed.
Lemma sim_loop : forall ss b i m mt, Rel m mt -> sim (copy nof b i ss m) (t_loop b i ss mt).
Proof.
  induction ss as [|s ss IH]; intros b i m mt R; cbn [copy t_loop].
  - cbn. eauto.
  - pose proof (sim_construct b i s m mt R) as H. destruct (construct nof b i s m) as [u m1|u m1|]; [| |exact I].
    + destruct H as (mt1 & -> & R1). apply IH; auto.
    + destruct H as (mt1 & -> & R1). cbn. eauto.
Qed.
Lemma sim_fill : forall b i j s m mt, Rel m mt -> sim (fill nof b i j s m) (t_fill b i j s mt).
Proof. intros. unfold fill, t_fill. destruct (j <? i); [exact I|]. apply sim_loop; auto. Qed.
Lemma sim_allocate : forall n m mt, Rel m mt -> sim (allocate nomem n m) (allocate nomem n mt).
Proof.
  intros n m mt (A & B & C & D). unfold allocate. rewrite B. destruct (nomem (tick m)); cbn [sim].
  - eexists. split; [reflexivity|]. repeat split; cbn; auto.
  - rewrite A. eexists. split; [reflexivity|]. repeat split; cbn; auto.
    + intros b. destruct (Nat.eqb_spec b (next m)); [split; auto|apply C].
    + intros b H. destruct (Nat.eqb_spec b (next m)); [lia|]. apply D; lia.
Qed.
Lemma sim_deallocate : forall b n m mt, Rel m mt -> sim (deallocate b n m) (t_deallocate b n mt).
Proof.
  intros b n m mt R. unfold deallocate, t_deallocate. destruct (blk m b) as [l|] eqn:E; [|exact I].
  destruct (rel_blk m mt b l R E) as (lt & -> & K & _). rewrite K.
  destruct (length l =? n); cbn [andb]; [|exact I]. destruct (forallb raw l); [|exact I]. cbn.
  eexists. split; [reflexivity|]. apply rel_free; auto.
Qed.

(* ---- what the generic loops do, read cell by cell ---- *)
Lemma construct_inv : forall b i s (m m' : mem) u, construct nof b i s m = Ok u m' ->
  exists l v, blk m b = Some l /\ nth_error l i = Some None /\ read m s = Some v /\
    m' = step (set_blk m b (Some (put l i (Some v)))).
Proof.
  intros b i s m m' u. unfold construct. destruct (blk m b) as [l|]; [|discriminate].
  destruct (nth_error l i) as [[x|]|] eqn:N; try discriminate. destruct (read m s) as [v|] eqn:R; [|discriminate].
  intros H. injection H as <- <-. eauto 10.
Qed.
Lemma construct_noexc : forall b i s (m : mem), match construct nof b i s m with Exc _ _ => False | _ => True end.
Proof.
  intros. unfold construct. destruct (blk m b); auto. destruct (nth_error l i) as [[|]|]; auto. destruct (read m s); auto.
Qed.
Lemma copy_noexc : forall ss b i (m : mem), match copy nof b i ss m with Exc _ _ => False | _ => True end.
Proof.
  induction ss; intros; cbn [copy]; auto. pose proof (construct_noexc b i a m).
  destruct (construct nof b i a m); auto. apply IHss.
Qed.

(* a block of the generic memory after a copy: every element in it comes from the
   source when it lies in the destination, and was there before otherwise *)
Definition moved (l ls l' : list cell) (src dst n : nat) : Prop :=
  length l' = length l /\ dst + n <= length l /\ src + n <= length ls /\
  forall i v, nth_error l' i = Some (Some v) ->
    if (dst <=? i) && (i <? dst + n) then nth_error ls (src + (i - dst)) = Some (Some v) else nth_error l i = Some (Some v).
Definition shifted (m m' : mem) (bs b src dst n d' d : nat) : Prop :=
  d' = d /\ next m' = next m /\ tick m' = tick m + n /\ (forall b', b' <> b -> blk m' b' = blk m b') /\
  exists l ls l', blk m b = Some l /\ blk m bs = Some ls /\ blk m' b = Some l' /\ moved l ls l' src dst n.

Lemma copy_inv : forall n bs first b dst (m m' : mem) d,
  bs <> b \/ dst + S n <= first \/ first + S n <= dst ->
  copy nof b dst (map (Ref bs) (seq first (S n))) m = Ok d m' ->
  shifted m m' bs b first dst (S n) d (dst + S n).
Proof.
  induction n as [|n IH]; intros bs first b dst m m' d DJ H.
  - cbn [seq map copy] in H. pose proof (construct_inv b dst (Ref bs first) m) as CI.
    destruct (construct nof b dst (Ref bs first) m) as [u m1|u m1|]; try discriminate. injection H as <- <-.
    destruct (CI m1 u eq_refl) as (l & v & E & N & R & ->).
    cbn [read] in R. destruct (blk m bs) as [ls|] eqn:Es; [|discriminate].
    destruct (nth_error ls first) as [[w|]|] eqn:Ns; try discriminate. injection R as ->.
    split; [lia|]. split; [auto|]. split; [cbn; lia|]. split.
    { intros b' Hb. cbn. destruct (Nat.eqb_spec b' b); [contradiction|auto]. }
    exists l, ls, (put l dst (Some v)). split; auto. split; auto. split. { cbn. rewrite Nat.eqb_refl; auto. }
    pose proof (nth_len _ _ _ N). pose proof (nth_len _ _ _ Ns).
    split; [apply put_len|]. split; [lia|]. split; [lia|].
    intros i x. rewrite put_nth. destruct (Nat.eqb_spec dst i) as [<-|Hi].
    + rewrite Nat.leb_refl. destruct (Nat.ltb_spec dst (dst + 1)); [|lia]. cbn [andb].
      destruct (Nat.ltb_spec dst (length l)); [|lia]. replace (first + (dst - dst)) with first by lia. congruence.
    + destruct ((dst <=? i) && (i <? dst + 1)) eqn:Ei; auto.
      apply andb_true_iff in Ei. destruct Ei as [E1 E2]. apply Nat.leb_le in E1. apply Nat.ltb_lt in E2. lia.
  - rewrite <- cons_seq in H. cbn [map] in H. cbn [copy] in H. pose proof (construct_inv b dst (Ref bs first) m) as CI.
    destruct (construct nof b dst (Ref bs first) m) as [u m1|u m1|]; try discriminate.
    destruct (CI m1 u eq_refl) as (l & v & E & N & R & M1).
    apply IH in H; [|lia]. destruct H as (-> & N' & T' & O' & l1 & ls1 & l2 & E1 & Es1 & E2 & L2 & B2 & S2 & P2).
    cbn [read] in R. destruct (blk m bs) as [ls|] eqn:Es; [|discriminate].
    destruct (nth_error ls first) as [[w|]|] eqn:Ns; try discriminate. injection R as ->.
    subst m1. cbn in E1, N', T', O'. rewrite Nat.eqb_refl in E1. injection E1 as <-. rewrite put_len in *.
    pose proof (nth_len _ _ _ N). pose proof (nth_len _ _ _ Ns).
    assert (LS : length ls1 = length ls /\ forall j, bs <> b \/ j <> dst -> nth_error ls1 j = nth_error ls j).
    { cbn in Es1. destruct (Nat.eqb_spec bs b) as [->|].
      - rewrite E in Es. injection Es as <-. injection Es1 as <-. rewrite put_len. split; auto.
        intros j [|Hj]; [contradiction|]. rewrite put_nth. destruct (Nat.eqb_spec dst j); [congruence|auto].
      - rewrite Es in Es1. injection Es1 as <-. auto. }
    destruct LS as [LS1 LS2].
    split; [lia|]. split; [auto|]. split; [cbn in *; lia|]. split.
    { intros b' Hb. rewrite O' by auto. destruct (Nat.eqb_spec b' b); [contradiction|auto]. }
    exists l, ls, l2. split; auto. split; auto. split; auto. split; [lia|]. split; [lia|]. split; [lia|].
    intros i x Hx. specialize (P2 i x Hx).
    destruct (Nat.leb_spec dst i); destruct (Nat.ltb_spec i (dst + S (S n))); cbn [andb];
      destruct (Nat.leb_spec (S dst) i) in P2; destruct (Nat.ltb_spec i (S dst + S n)) in P2; cbn [andb] in P2; try lia.
    + rewrite LS2 in P2 by lia. rewrite <- P2. f_equal; lia.
    + rewrite put_nth in P2. assert (i = dst) by lia. subst i. rewrite Nat.eqb_refl in P2.
      destruct (Nat.ltb_spec dst (length l)); [|lia]. replace (first + (dst - dst)) with first by lia. congruence.
    + rewrite put_nth in P2. destruct (Nat.eqb_spec dst i); [lia|auto].
    + rewrite put_nth in P2. destruct (Nat.eqb_spec dst i); [lia|auto].
Qed.

(* one step of transfer_to_left and transfer_to_right *)
Lemma over_inv : forall b src dst (m m1 m2 : mem) u, destroy1 b dst m = Ok tt m1 -> construct nof b dst (Ref b src) m1 = Ok u m2 ->
  exists l l' v, blk m b = Some l /\ blk m2 b = Some l' /\ length l' = length l /\ dst < length l /\ src <> dst /\
    nth_error l src = Some (Some v) /\ (forall j, nth_error l' j = if j =? dst then Some (Some v) else nth_error l j) /\
    (forall b', b' <> b -> blk m2 b' = blk m b') /\ next m2 = next m /\ tick m2 = S (tick m).
Proof.
  intros b src dst m m1 m2 u D C. unfold destroy1 in D. destruct (blk m b) as [l|] eqn:E; [|discriminate].
  destruct (nth_error l dst) as [[x|]|] eqn:N; try discriminate. injection D as <-.
  apply construct_inv in C. destruct C as (l1 & v & E1 & N1 & R & ->). cbn in E1. rewrite Nat.eqb_refl in E1. injection E1 as <-.
  cbn in R. rewrite Nat.eqb_refl in R. pose proof (nth_len _ _ _ N) as Ld.
  rewrite put_nth in R. destruct (Nat.eqb_spec dst src) as [->|Hd].
  { destruct (src <? length l); discriminate. }
  destruct (nth_error l src) as [[w|]|] eqn:Ns; try discriminate. injection R as ->.
  exists l, (put (put l dst None) dst (Some v)), v. split; auto. split. { cbn. rewrite Nat.eqb_refl; auto. }
  split; [rewrite !put_len; auto|]. split; auto. split; auto. split; auto. split.
  { intros j. rewrite put_nth, put_len. rewrite (Nat.eqb_sym j dst). destruct (Nat.eqb_spec dst j).
    - destruct (Nat.ltb_spec dst (length l)); [auto|lia].
    - rewrite put_nth. destruct (Nat.eqb_spec dst j); [contradiction|auto]. }
  split; [|split; auto]. intros b' Hb. cbn. destruct (Nat.eqb_spec b' b); [contradiction|auto].
Qed.

Lemma left_inv : forall n b src dst (m m' : mem) d, dst <= src ->
  left_n nof (S n) b src dst m = Ok d m' -> shifted m m' b b src dst (S n) d (dst + S n).
Proof.
  induction n as [|n IH]; intros b src dst m m' d LE H; cbn [left_n] in H;
    (destruct (destroy1 b dst m) as [[] m1|[] m1|] eqn:D; try discriminate);
    (destruct (construct nof b dst (Ref b src) m1) as [u m2|u m2|] eqn:C; try discriminate);
    destruct (over_inv _ _ _ _ _ _ _ D C) as (l & l1 & v & E & E1 & L1 & Ld & NE & Ns & P1 & O1 & N1 & T1);
    pose proof (nth_len _ _ _ Ns) as Ls.
  - injection H as <- <-. split; [lia|]. split; auto. split; [lia|]. split; auto.
    exists l, l, l1. split; auto. split; auto. split; auto. split; auto. split; [lia|]. split; [lia|].
    intros i x Hx. rewrite P1 in Hx. destruct (Nat.eqb_spec i dst) as [->|Hi].
    + rewrite Nat.leb_refl. destruct (Nat.ltb_spec dst (dst + 1)); [|lia]. cbn [andb].
      replace (src + (dst - dst)) with src by lia. congruence.
    + destruct ((dst <=? i) && (i <? dst + 1)) eqn:Ei; auto.
      apply andb_true_iff in Ei. destruct Ei as [A B]. apply Nat.leb_le in A. apply Nat.ltb_lt in B. lia.
  - change (left_n nof (S n) b (S src) (S dst) m2 = Ok d m') in H. apply IH in H; [|lia].
    destruct H as (-> & N' & T' & O' & la & ls & l2 & Ea & Es & E2 & L2 & B2 & S2 & P2).
    rewrite E1 in Ea, Es. injection Ea as <-. injection Es as <-.
    split; [lia|]. split; [congruence|]. split; [lia|]. split. { intros. rewrite O', O1; auto. }
    exists l, l, l2. split; auto. split; auto. split; auto. split; [lia|]. split; [lia|]. split; [lia|].
    intros i x Hx. specialize (P2 i x Hx).
    destruct (Nat.leb_spec dst i); destruct (Nat.ltb_spec i (dst + S (S n))); cbn [andb];
      destruct (Nat.leb_spec (S dst) i) in P2; destruct (Nat.ltb_spec i (S dst + S n)) in P2; cbn [andb] in P2; try lia.
    + rewrite P1 in P2. destruct (Nat.eqb_spec (S src + (i - S dst)) dst); [lia|]. rewrite <- P2. f_equal; lia.
    + rewrite P1 in P2. assert (i = dst) by lia. subst i. rewrite Nat.eqb_refl in P2.
      replace (src + (dst - dst)) with src by lia. congruence.
    + rewrite P1 in P2. destruct (Nat.eqb_spec i dst); [lia|auto].
    + rewrite P1 in P2. destruct (Nat.eqb_spec i dst); [lia|auto].
Qed.
Lemma right_inv : forall n b src1 dst1 (m m' : mem) d, src1 <= dst1 -> S n <= src1 ->
  right_n nof (S n) b src1 dst1 m = Ok d m' -> shifted m m' b b (src1 - S n) (dst1 - S n) (S n) d (dst1 - S n).
Proof.
  induction n as [|n IH]; intros b src1 dst1 m m' d LE GE H; cbn [right_n] in H;
    (destruct (destroy1 b (pred dst1) m) as [[] m1|[] m1|] eqn:D; try discriminate);
    (destruct (construct nof b (pred dst1) (Ref b (pred src1)) m1) as [u m2|u m2|] eqn:C; try discriminate);
    destruct (over_inv _ _ _ _ _ _ _ D C) as (l & l1 & v & E & E1 & L1 & Ld & NE & Ns & P1 & O1 & N1 & T1);
    pose proof (nth_len _ _ _ Ns) as Ls.
  - injection H as <- <-. split; [lia|]. split; auto. split; [lia|]. split; auto.
    exists l, l, l1. split; auto. split; auto. split; auto. split; auto. split; [lia|]. split; [lia|].
    intros i x Hx. rewrite P1 in Hx. destruct (Nat.eqb_spec i (pred dst1)) as [->|Hi].
    + destruct (Nat.leb_spec (dst1 - 1) (pred dst1)); [|lia]. destruct (Nat.ltb_spec (pred dst1) (dst1 - 1 + 1)); [|lia]. cbn [andb].
      replace (src1 - 1 + (pred dst1 - (dst1 - 1))) with (pred src1) by lia. congruence.
    + destruct ((dst1 - 1 <=? i) && (i <? dst1 - 1 + 1)) eqn:Ei; auto.
      apply andb_true_iff in Ei. destruct Ei as [A B]. apply Nat.leb_le in A. apply Nat.ltb_lt in B. lia.
  - change (right_n nof (S n) b (pred src1) (pred dst1) m2 = Ok d m') in H. apply IH in H; [|lia|lia].
    destruct H as (-> & N' & T' & O' & la & ls & l2 & Ea & Es & E2 & L2 & B2 & S2 & P2).
    rewrite E1 in Ea, Es. injection Ea as <-. injection Es as <-.
    split; [lia|]. split; [congruence|]. split; [lia|]. split. { intros. rewrite O', O1; auto. }
    exists l, l, l2. split; auto. split; auto. split; auto. split; [lia|]. split; [lia|]. split; [lia|].
    intros i x Hx. specialize (P2 i x Hx).
    destruct (Nat.leb_spec (dst1 - S (S n)) i); destruct (Nat.ltb_spec i (dst1 - S (S n) + S (S n))); cbn [andb];
      destruct (Nat.leb_spec (pred dst1 - S n) i) in P2; destruct (Nat.ltb_spec i (pred dst1 - S n + S n)) in P2; cbn [andb] in P2; try lia.
    + rewrite P1 in P2. destruct (Nat.eqb_spec (pred src1 - S n + (i - (pred dst1 - S n))) (pred dst1)); [lia|]. rewrite <- P2. f_equal; lia.
    + rewrite P1 in P2. assert (i = pred dst1) by lia. subst i. rewrite Nat.eqb_refl in P2.
      replace (src1 - S (S n) + (pred dst1 - (dst1 - S (S n)))) with (pred src1) by lia. congruence.
    + rewrite P1 in P2. destruct (Nat.eqb_spec i (pred dst1)); [lia|auto].
    + rewrite P1 in P2. destruct (Nat.eqb_spec i (pred dst1)); [lia|auto].
Qed.

(* memmove does what was read off the loops *)
Lemma shifted_memmove : forall m mt m' bs b src dst n d e, Rel m mt -> shifted m m' bs b src dst (S n) d e ->
  exists mt', memmove bs src (S n) b dst mt = Ok (dst + S n) mt' /\ Rel m' mt'.
Proof.
  intros m mt m' bs b src dst n d e R (-> & N' & T' & O' & l & ls & l' & E & Es & E' & L' & B' & S' & P').
  destruct (rel_blk m mt b l R E) as (lt & Et & K1 & K2). destruct (rel_blk m mt bs ls R Es) as (lst & Est & J1 & J2).
  unfold memmove. cbn [Nat.eqb]. rewrite Est, Et.
  destruct (Nat.leb_spec (src + S n) (length lst)); [|lia]. destruct (Nat.leb_spec (dst + S n) (length lt)); [|lia]. cbn [andb].
  eexists. split; [reflexivity|]. pose proof (rel_lt _ _ _ _ R E) as Lb. destruct R as (A & B & C & D).
  assert (LG : length (firstn (S n) (skipn src lst)) = S n) by (rewrite firstn_length, skipn_length; lia).
  split; [cbn; congruence|]. split; [cbn; lia|]. split.
  - intros b'. cbn [blk advance set_blk]. destruct (Nat.eqb_spec b' b) as [->|Hb].
    + rewrite E'. split; [rewrite blit_len; [congruence|lia]|]. intros i v Hv. specialize (P' i v Hv).
      rewrite blit_nth by lia. rewrite LG. destruct (Nat.leb_spec dst i); destruct (Nat.ltb_spec i (dst + S n)); cbn [andb] in *; auto.
      rewrite nth_firstn by lia. rewrite nth_skipn. auto.
    + rewrite O' by auto. apply C.
  - intros b' Hb. rewrite N' in Hb. destruct (Nat.eq_dec b' b); [subst; lia|]. rewrite O' by auto. apply D; auto.
Qed.

Lemma sim_memcpy : forall bs first n b dst m mt, Rel m mt ->
  bs <> b \/ dst + n <= first \/ first + n <= dst ->
  sim (copy nof b dst (map (Ref bs) (seq first n)) m) (memcpy bs first n b dst mt).
Proof.
  intros bs first n b dst m mt R DJ. unfold memcpy.
  replace ((bs =? b) && (first <? dst + n) && (dst <? first + n) && negb (n =? 0)) with false.
  2:{ symmetry. destruct (Nat.eqb_spec bs b); auto. cbn [andb]. destruct (Nat.ltb_spec first (dst + n)); auto. cbn [andb].
      destruct (Nat.ltb_spec dst (first + n)); auto. cbn [andb]. lia. }
  destruct n as [|n]. { cbn. eauto. }
  pose proof (copy_noexc (map (Ref bs) (seq first (S n))) b dst m) as NX.
  destruct (copy nof b dst (map (Ref bs) (seq first (S n))) m) as [d m'|d m'|] eqn:E; [|contradiction|exact I].
  apply copy_inv in E; auto. destruct (shifted_memmove _ _ _ _ _ _ _ _ _ _ R E) as (mt' & E' & R').
  destruct E as (-> & _). exists mt'. auto.
Qed.
Lemma sim_transfer : forall bs first last b dst m mt, Rel m mt ->
  bs <> b \/ dst + (last - first) <= first \/ last <= dst ->
  sim (transfer nof bs first last b dst m) (t_transfer bs first last b dst mt).
Proof.
  intros bs first last b dst m mt R DJ. unfold transfer, t_transfer. destruct (Nat.ltb_spec last first); [exact I|].
  apply sim_memcpy; auto. lia.
Qed.
Lemma left_noexc : forall n b src dst (m : mem), match left_n nof n b src dst m with Exc _ _ => False | _ => True end.
Proof.
  induction n; intros; cbn [left_n]; auto. destruct (destroy1 b dst m) as [u m1|u m1|]; auto.
  pose proof (construct_noexc b dst (Ref b src) m1). destruct (construct nof b dst (Ref b src) m1); auto. apply IHn.
Qed.
Lemma right_noexc : forall n b src dst (m : mem), match right_n nof n b src dst m with Exc _ _ => False | _ => True end.
Proof.
  induction n; intros; cbn [right_n]; auto. destruct (destroy1 b (pred dst) m) as [u m1|u m1|]; auto.
  pose proof (construct_noexc b (pred dst) (Ref b (pred src)) m1).
  destruct (construct nof b (pred dst) (Ref b (pred src)) m1); auto. apply IHn.
Qed.
Lemma sim_left : forall b first last dst m mt, Rel m mt -> dst <= first ->
  sim (transfer_left nof b first last dst m) (t_transfer_left b first last dst mt).
Proof.
  intros b first last dst m mt R LE. unfold transfer_left, t_transfer_left. destruct (Nat.ltb_spec last first); [exact I|].
  destruct (last - first) as [|n]. { cbn. eauto. }
  pose proof (left_noexc (S n) b first dst m) as NX.
  destruct (left_n nof (S n) b first dst m) as [d m'|d m'|] eqn:E; [|contradiction|exact I].
  apply left_inv in E; auto. destruct (shifted_memmove _ _ _ _ _ _ _ _ _ _ R E) as (mt' & E' & R').
  destruct E as (-> & _). exists mt'. auto.
Qed.
Lemma sim_right : forall b first last dst1 m mt, Rel m mt -> last <= dst1 ->
  sim (transfer_right nof b first last dst1 m) (t_transfer_right b first last dst1 mt).
Proof.
  intros b first last dst1 m mt R LE. unfold transfer_right, t_transfer_right. destruct (Nat.ltb_spec last first); [exact I|].
  destruct (Nat.ltb_spec dst1 (last - first)); [lia|]. cbn [orb].
  destruct (last - first) as [|n] eqn:EN. { cbn. rewrite Nat.sub_0_r. eauto. }
  pose proof (right_noexc (S n) b last dst1 m) as NX.
  destruct (right_n nof (S n) b last dst1 m) as [d m'|d m'|] eqn:E; [|contradiction|exact I].
  apply right_inv in E; [|lia|lia]. replace (last - S n) with first in E by lia.
  destruct (shifted_memmove _ _ _ _ _ _ _ _ _ _ R E) as (mt' & E' & R'). rewrite E'.
  destruct E as (-> & _). exists mt'. auto.
Qed.
Lemma contiguous_refs : forall (ss : list src) b i, contiguous b i ss = true -> ss = map (Ref b) (seq i (length ss)).
Proof.
  induction ss as [|[v|b' i'] ss IH]; intros b i H; cbn [contiguous] in H; auto; try discriminate.
  apply andb_true_iff in H. destruct H as [H1 H2]. apply andb_true_iff in H1. destruct H1 as [A B].
  apply Nat.eqb_eq in A, B. subst. cbn [length seq map]. f_equal. auto.
Qed.
(* none of the elements copied lies in the block they are copied to *)
Definition elsewhere (b : nat) (ss : list src) : Prop := forall s, In s ss -> match s with Ref b' _ => b' <> b | Ext _ => True end.
Lemma sim_copy : forall plain b i ss m mt, Rel m mt -> plain = false \/ elsewhere b ss ->
  sim (copy nof b i ss m) (t_copy plain b i ss mt).
Proof.
  intros plain b i ss m mt R OUT. unfold t_copy. destruct ss as [|[v|bs first] ss]; try (apply sim_loop; auto).
  destruct plain; cbn [andb]; [|apply sim_loop; auto].
  destruct (contiguous bs first (Ref bs first :: ss)) eqn:C; [|apply sim_loop; auto].
  rewrite (contiguous_refs _ _ _ C) at 1. apply sim_memcpy; auto. left.
  destruct OUT as [|OUT]; [discriminate|]. apply (OUT (Ref bs first)). left; auto.
Qed.

(* ---- raw_vector ---- *)
Ltac go L := let H := fresh "H" in pose proof L as H;
  match type of H with sim ?x _ =>
    let a := fresh "a" in let m1 := fresh "m1" in let mt1 := fresh "mt1" in let R1 := fresh "R1" in let E := fresh "E" in
    destruct x as [a m1|a m1|] eqn:E;
    [destruct H as (mt1 & -> & R1)|destruct H as (mt1 & -> & R1)|exact I]; cbn [andthen rethrow] in *
  end.
Ltac fin := cbn [sim]; eexists; (split; [reflexivity|auto]).

Definition mine (r : rv) (m : mem) : Prop := forall b, ptr r = Some b -> b < next m.
Definition reachable (ss : list src) (m : mem) : Prop := forall s, In s ss -> match s with Ref b' _ => b' < next m | Ext _ => True end.

Lemma alloc_next : forall n (m : mem) nb m1, allocate nomem n m = Ok nb m1 -> nb = next m.
Proof. intros n m nb m1. unfold allocate. destruct (nomem (tick m)); [discriminate|]. intros H. injection H as <- _. auto. Qed.

Lemma sim_drop_old : forall r n m mt, Rel m mt -> sim (drop_old r n m) (t_drop_old r n mt).
Proof.
  intros r n m mt R. unfold drop_old, t_drop_old. destruct (ptr r) as [ob|]; [|fin].
  go (sim_destroy ob 0 n m mt R); [apply sim_deallocate; auto|exact I].
Qed.
Lemma sim_drop_new : forall {A} nb d c (a : A) m mt, Rel m mt -> sim (drop_new nb d c a m) (t_drop_new nb d c a mt).
Proof.
  intros A nb d c a m mt R. unfold drop_new, t_drop_new.
  go (sim_destroy nb 0 d m mt R); [|exact I]. go (sim_deallocate nb c _ _ R1); [fin|exact I].
Qed.
Lemma sim_init_from_value : forall r n s m mt, Rel m mt ->
  sim (init_from_value nof nomem r n s m) (t_init_from_value nomem r n s mt).
Proof.
  intros r n s m mt R. unfold init_from_value, t_init_from_value. go (sim_allocate n m mt R); [|fin].
  go (sim_fill a 0 n s _ _ R1); [fin|apply sim_drop_new; auto].
Qed.
Lemma sim_init_from_range : forall plain r n ss m mt, Rel m mt -> reachable ss m ->
  sim (init_from_range nof nomem r n ss m) (t_init_from_range nomem plain r n ss mt).
Proof.
  intros plain r n ss m mt R RS. unfold init_from_range, t_init_from_range. go (sim_allocate n m mt R); [|fin].
  apply alloc_next in E. subst a.
  assert (OUT : elsewhere (next m) ss). { intros s Hs. specialize (RS s Hs). destruct s; auto. lia. }
  go (sim_copy plain (next m) 0 ss _ _ R1 (or_intror OUT)); [fin|apply sim_drop_new; auto].
Qed.
Lemma sim_raw_assign : forall r o n s m mt, Rel m mt -> sim (raw_assign nof nomem half r o n s m) (t_raw_assign nomem half r o n s mt).
Proof.
  intros r o n s m mt R. unfold raw_assign, t_raw_assign. destruct ((n <=? cap r) && negb (cap r =? 0)).
  - destruct (ptr r) as [ob|]; [|exact I]. go (sim_destroy ob 0 o m mt R); [|exact I].
    go (sim_fill ob 0 n s _ _ R1); [fin|]. go (sim_destroy ob 0 a0 _ _ R0); [fin|exact I].
  - cbv zeta. go (sim_allocate (increase half (cap r) n) m mt R); [|fin].
    go (sim_fill a 0 n s _ _ R1); [|apply sim_drop_new; auto]. go (sim_drop_old r o _ _ R0); [fin|exact I].
Qed.
Lemma sim_raw_resize : forall r o n s m mt, Rel m mt -> mine r m ->
  sim (raw_resize nof nomem half r o n s m) (t_raw_resize nomem half r o n s mt).
Proof.
  intros r o n s m mt R M. unfold raw_resize, t_raw_resize. destruct (n <? o).
  { destruct (ptr r) as [ob|]; [|exact I]. go (sim_destroy ob n o m mt R); [fin|exact I]. }
  destruct (o <? n); [|fin]. destruct (cap r <? n).
  - cbv zeta. go (sim_allocate (increase half (cap r) n) m mt R); [|fin]. apply alloc_next in E. subst a.
    destruct (ptr r) as [ob|] eqn:P.
    + specialize (M ob P). go (sim_transfer ob 0 o (next m) 0 _ _ R1 ltac:(lia)); [|apply sim_drop_new; auto].
      go (sim_fill (next m) a n s _ _ R0); [|apply sim_drop_new; auto].
      go (sim_drop_old r o _ _ R2); [fin|exact I].
    + go (sim_fill (next m) 0 n s _ _ R1); [|apply sim_drop_new; auto].
      go (sim_drop_old r o _ _ R0); [fin|exact I].
  - destruct (ptr r) as [ob|]; [|exact I]. go (sim_fill ob o n s m mt R); [fin|].
    go (sim_destroy ob o a _ _ R1); [fin|exact I].
Qed.
Lemma sim_relocate : forall r o n m mt, Rel m mt -> mine r m -> sim (relocate nof nomem r o n m) (t_relocate nomem r o n mt).
Proof.
  intros r o n m mt R M. unfold relocate, t_relocate. go (sim_allocate n m mt R); [|fin]. apply alloc_next in E. subst a.
  destruct (ptr r) as [ob|] eqn:P; [|fin]. specialize (M ob P).
  go (sim_transfer ob 0 o (next m) 0 _ _ R1 ltac:(lia)); [|apply sim_drop_new; auto].
  go (sim_drop_old r o _ _ R0); [fin|exact I].
Qed.
Lemma sim_prepare_push_back : forall r o n m mt, Rel m mt -> mine r m ->
  sim (prepare_push_back nof nomem half r o n m) (t_prepare_push_back nomem half r o n mt).
Proof. intros. unfold prepare_push_back, t_prepare_push_back. destruct (cap r <? n); [apply sim_relocate; auto|fin]. Qed.
Lemma sim_prepare_insert : forall r o off count es m mt, Rel m mt -> mine r m -> off <= o ->
  sim (prepare_insert nof nomem half r o off count es m) (t_prepare_insert nomem half r o off count es mt).
Proof.
  intros r o off count es m mt R M LE. unfold prepare_insert, t_prepare_insert. cbv zeta.
  set (ins := count * es). destruct (cap r <? o + ins).
  - go (sim_allocate (increase half (cap r) (o + ins)) m mt R); [|fin]. apply alloc_next in E. subst a.
    destruct (ptr r) as [ob|] eqn:P; [|fin]. specialize (M ob P).
    go (sim_transfer ob 0 off (next m) 0 _ _ R1 ltac:(lia)); [|apply sim_drop_new; auto].
    go (sim_transfer ob off o (next m) (off + ins) _ _ R0 ltac:(lia)).
    + go (sim_drop_old r o _ _ R2); [fin|exact I].
    + go (sim_destroy (next m) 0 a _ _ R2); [|exact I].
      go (sim_destroy (next m) (off + ins) a0 _ _ R3); [|exact I].
      go (sim_deallocate (next m) (increase half (cap r) (o + ins)) _ _ R4); [fin|exact I].
  - destruct (ptr r) as [ob|] eqn:P; [|destruct (Nat.eqb o 0 && Nat.eqb ins 0); [fin|exact I]].
    destruct (Nat.leb_spec (o - off) ins).
    + go (sim_transfer ob off o ob (off + ins) _ _ R ltac:(lia)).
      * go (sim_destroy ob off o _ _ R1); [fin|exact I].
      * go (sim_destroy ob (off + ins) a _ _ R1); [fin|exact I].
    + go (sim_transfer ob (o - (o + ins - o)) o ob (o + ins - (o + ins - o)) _ _ R ltac:(lia)).
      * go (sim_right ob off (o - (o + ins - o)) o _ _ R1 ltac:(lia)).
        -- go (sim_destroy ob off (off + ins) _ _ R0); [fin|exact I].
        -- go (sim_destroy ob (pred a0 / es * es) (pred a0) _ _ R0); [|exact I].
           go (sim_destroy ob a0 a _ _ R2); [fin|exact I].
      * go (sim_destroy ob (o + ins - (o + ins - o)) a _ _ R1); [fin|exact I].
Qed.
Lemma sim_raw_erase : forall r o off count es m mt, Rel m mt ->
  sim (raw_erase nof r o off count es m) (t_raw_erase r o off count es mt).
Proof.
  intros r o off count es m mt R. unfold raw_erase, t_raw_erase. cbv zeta. destruct (o <? count * es); [exact I|].
  destruct (ptr r) as [ob|]; [|exact I]. go (sim_left ob (off + count * es) o off m mt R ltac:(lia)).
  - go (sim_destroy ob (o - count * es) o _ _ R1); [fin|exact I].
  - go (sim_destroy ob (a / es * es) a _ _ R1); [|exact I]. go (sim_destroy ob (S a) o _ _ R0); [fin|exact I].
Qed.
Lemma sim_raw_reserve : forall r o n m mt, Rel m mt -> mine r m -> sim (raw_reserve nof nomem r o n m) (t_raw_reserve nomem r o n mt).
Proof. intros. unfold raw_reserve, t_raw_reserve. destruct (cap r <? n); [apply sim_relocate; auto|fin]. Qed.
Lemma sim_raw_shrink : forall r n m mt, Rel m mt -> mine r m -> sim (raw_shrink nof nomem r n m) (t_raw_shrink nomem r n mt).
Proof.
  intros r n m mt R M. unfold raw_shrink, t_raw_shrink. destruct (ptr r) as [ob|]; [|fin]. destruct (n =? cap r); [fin|].
  destruct (0 <? n); [apply sim_relocate; auto|]. go (sim_drop_old r n m mt R); [fin|exact I].
Qed.

(* ---- the vector ---- *)
Lemma sim_destroy_all : forall v m mt, Rel m mt -> sim (destroy_all v m) (t_destroy_all v mt).
Proof.
  intros v m mt R. unfold destroy_all, t_destroy_all. destruct (vsize v =? 0); [fin|].
  destruct (ptr (vraw v)); [apply sim_destroy; auto|exact I].
Qed.
Lemma sim_clear : forall v m mt, Rel m mt -> sim (clear v m) (t_clear v mt).
Proof. intros v m mt R. unfold clear, t_clear. go (sim_destroy_all v m mt R); [fin|exact I]. Qed.
Lemma sim_free_raw : forall r m mt, Rel m mt -> sim (free_raw r m) (t_free_raw r mt).
Proof. intros r m mt R. unfold free_raw, t_free_raw. destruct (ptr r); [apply sim_deallocate; auto|fin]. Qed.
Lemma sim_destruct : forall v m mt, Rel m mt -> sim (destruct_vec v m) (t_destruct_vec v mt).
Proof. intros v m mt R. unfold destruct_vec, t_destruct_vec. go (sim_destroy_all v m mt R); [apply sim_free_raw; auto|exact I]. Qed.
Lemma sim_push_back : forall v s m mt, Rel m mt -> mine (vraw v) m ->
  sim (push_back nof nomem half v s m) (t_push_back nomem half v s mt).
Proof.
  intros v s m mt R M. unfold push_back, t_push_back.
  go (sim_prepare_push_back (vraw v) (vsize v) (S (vsize v)) m mt R M); [|fin]. destruct (ptr a) as [b|]; [|exact I].
  go (sim_construct b (vsize v) s _ _ R1); fin.
Qed.
Lemma sim_pop_back : forall v m mt, Rel m mt -> sim (pop_back v m) (t_pop_back v mt).
Proof.
  intros v m mt R. unfold pop_back, t_pop_back. destruct (vsize v); [fin|]. destruct (ptr (vraw v)) as [b|]; [|exact I].
  go (sim_destroy1 b n m mt R); [fin|exact I].
Qed.
Lemma sim_prepare_insert_1 : forall v off count m mt, Rel m mt -> mine (vraw v) m -> off <= vsize v ->
  sim (prepare_insert_1 nof nomem half v off count m) (t_prepare_insert_1 nomem half v off count mt).
Proof.
  intros v off count m mt R M LE. unfold prepare_insert_1, t_prepare_insert_1.
  go (sim_prepare_insert (vraw v) (vsize v) off count 1 m mt R M LE); destruct a; fin.
Qed.
(* prepare_insert leaves the vector in its old block or in a new one *)
Lemma prepare_insert_ptr : forall r o off count es (m m1 : mem) r1 vc, prepare_insert nof nomem half r o off count es m = Ok (r1, vc) m1 ->
  ptr r1 = ptr r \/ ptr r1 = Some (next m).
Proof.
  intros r o off count es m m1 r1 vc. unfold prepare_insert. cbv zeta. destruct (cap r <? o + count * es).
  - destruct (allocate nomem (increase half (cap r) (o + count * es)) m) as [nb m2|nb m2|] eqn:E; try discriminate.
    apply alloc_next in E. subst nb. destruct (ptr r) as [ob|] eqn:P.
    + destruct (transfer nof ob 0 off (next m) 0 m2) as [d m3|d m3|]; try discriminate.
      * destruct (transfer nof ob off o (next m) (off + count * es) m3) as [d' m4|d' m4|]; try discriminate.
        -- destruct (drop_old r o m4); cbn [andthen]; try discriminate. intros H. injection H as <- _ _. auto.
        -- destruct (destroy (next m) 0 d m4); cbn [andthen]; try discriminate. unfold rethrow. destruct (andthen _ _); discriminate.
      * unfold drop_new, rethrow. destruct (andthen _ _); discriminate.
    + intros H. injection H as <- _ _. auto.
  - destruct (ptr r) as [ob|] eqn:P.
    + destruct (o - off <=? count * es).
      * destruct (transfer nof ob off o ob (off + count * es) m) as [d m3|d m3|]; try discriminate.
        -- destruct (destroy ob off o m3); cbn [andthen]; try discriminate. intros H. injection H as <- _ _. auto.
        -- unfold rethrow. destruct (destroy _ _ _ _); discriminate.
      * destruct (transfer nof ob _ o ob _ m) as [d m3|d m3|]; try discriminate.
        -- destruct (transfer_right nof ob off _ o m3) as [d' m4|d' m4|]; try discriminate.
           ++ destruct (destroy ob off (off + count * es) m4); cbn [andthen]; try discriminate. intros H. injection H as <- _ _. auto.
           ++ unfold andthen. destruct (destroy _ _ _ _); try discriminate. unfold rethrow. destruct (destroy _ _ _ _); discriminate.
        -- unfold rethrow. destruct (destroy _ _ _ _); discriminate.
    + destruct (Nat.eqb o 0 && Nat.eqb (count * es) 0); [|discriminate]. intros H. injection H as <- _ _. auto.
Qed.
Definition apart (r : rv) (ss : list src) : Prop := forall b, ptr r = Some b -> elsewhere b ss.
Lemma sim_insert_srcs : forall plain v off ss m mt, Rel m mt -> mine (vraw v) m -> off <= vsize v ->
  plain = false \/ (reachable ss m /\ apart (vraw v) ss) ->
  sim (insert_srcs nof nomem half v off ss m) (t_insert_srcs nomem half plain v off ss mt).
Proof.
  intros plain v off ss m mt R M LE OK. unfold insert_srcs, t_insert_srcs.
  go (sim_prepare_insert_1 v off (length ss) m mt R M LE); [|fin].
  destruct (ptr (vraw a)) as [b|] eqn:P; [|exact I].
  assert (OUT : plain = false \/ elsewhere b ss).
  { destruct OK as [OK|[RS AP]]; auto. right. unfold prepare_insert_1 in E.
    destruct (prepare_insert nof nomem half (vraw v) (vsize v) off (length ss) 1 m) as [[r1 vc] m2|[r1 vc] m2|] eqn:E2; try discriminate.
    injection E as <- <-. apply prepare_insert_ptr in E2. cbn in P. rewrite P in E2. destruct E2 as [E2|E2].
    - symmetry in E2. apply AP; auto.
    - injection E2 as ->. intros s Hs. specialize (RS s Hs). destruct s; auto. lia. }
  go (sim_copy plain b off ss _ _ R1 OUT); [fin|].
  go (sim_destroy b (off + length ss) (vsize a + length ss) _ _ R0); [fin|exact I].
Qed.
Lemma sim_insert_one : forall v off s m mt, Rel m mt -> mine (vraw v) m ->
  sim (insert_one nof nomem half v off s m) (t_insert_one nomem half v off s mt).
Proof.
  intros. unfold insert_one, t_insert_one. destruct (Nat.ltb_spec (vsize v) off); [exact I|]. apply sim_insert_srcs; auto.
Qed.
Lemma sim_insert_count : forall v off n s m mt, Rel m mt -> mine (vraw v) m ->
  sim (insert_count nof nomem half v off n s m) (t_insert_count nomem half v off n s mt).
Proof.
  intros. unfold insert_count, t_insert_count. destruct (Nat.ltb_spec (vsize v) off); [exact I|].
  destruct (n =? 0); [fin|]. apply sim_insert_srcs; auto.
Qed.
Lemma sim_insert_range : forall plain v off ss m mt, Rel m mt -> mine (vraw v) m -> reachable ss m -> apart (vraw v) ss ->
  sim (insert_range nof nomem half v off ss m) (t_insert_range nomem half plain v off ss mt).
Proof.
  intros plain v off ss m mt R M RS AP. unfold insert_range, t_insert_range. destruct (Nat.ltb_spec (vsize v) off); [exact I|].
  destruct ss; [fin|]. apply sim_insert_srcs; auto.
Qed.
Lemma sim_erase_ : forall v off n m mt, Rel m mt -> sim (erase_ nof v off n m) (t_erase_ v off n mt).
Proof.
  intros v off n m mt R. unfold erase_, t_erase_. go (sim_raw_erase (vraw v) (vsize v) off n 1 m mt R); destruct a; fin.
Qed.
Lemma sim_erase_one : forall v off m mt, Rel m mt -> sim (erase_one nof v off m) (t_erase_one v off mt).
Proof.
  intros. unfold erase_one, t_erase_one. destruct (vsize v <? off); [exact I|]. destruct (vsize v =? 0); [fin|]. apply sim_erase_; auto.
Qed.
Lemma sim_erase_range : forall v i j m mt, Rel m mt -> sim (erase_range nof v i j m) (t_erase_range v i j mt).
Proof.
  intros. unfold erase_range, t_erase_range. destruct ((vsize v <? i) || (vsize v <? j)); [exact I|]. destruct (j <? i); [fin|].
  destruct (i =? j); [fin|]. destruct (vsize v <? j - i); [fin|]. apply sim_erase_; auto.
Qed.
Lemma sim_resize : forall v n s m mt, Rel m mt -> mine (vraw v) m -> sim (resize nof nomem half v n s m) (t_resize nomem half v n s mt).
Proof. intros v n s m mt R M. unfold resize, t_resize. go (sim_raw_resize (vraw v) (vsize v) n s m mt R M); fin. Qed.
Lemma sim_assign : forall v n s m mt, Rel m mt -> sim (assign nof nomem half v n s m) (t_assign nomem half v n s mt).
Proof. intros v n s m mt R. unfold assign, t_assign. go (sim_raw_assign (vraw v) (vsize v) n s m mt R); destruct a; fin. Qed.
Lemma sim_reserve : forall v n m mt, Rel m mt -> mine (vraw v) m -> sim (reserve nof nomem v n m) (t_reserve nomem v n mt).
Proof. intros v n m mt R M. unfold reserve, t_reserve. go (sim_raw_reserve (vraw v) (vsize v) n m mt R M); fin. Qed.
Lemma sim_shrink : forall v m mt, Rel m mt -> mine (vraw v) m -> sim (shrink_to_fit nof nomem v m) (t_shrink_to_fit nomem v mt).
Proof. intros v m mt R M. unfold shrink_to_fit, t_shrink_to_fit. go (sim_raw_shrink (vraw v) (vsize v) m mt R M); fin. Qed.
Lemma sim_copy_construct : forall v m mt, Rel m mt -> mine (vraw v) m ->
  sim (copy_construct nof nomem v m) (t_copy_construct nomem v mt).
Proof.
  intros v m mt R M. unfold copy_construct, t_copy_construct.
  assert (RS : reachable (elems v) m).
  { intros s Hs. unfold elems in Hs. destruct (ptr (vraw v)) as [b|] eqn:P; [|contradiction].
    apply in_map_iff in Hs. destruct Hs as (k & <- & _). apply M; auto. }
  go (sim_init_from_range true (RV None 0) (vsize v) (elems v) m mt R RS); fin.
Qed.
Lemma sim_copy_assign : forall v w m mt, Rel m mt -> mine (vraw w) m ->
  sim (copy_assign nof nomem v w m) (t_copy_assign nomem v w mt).
Proof.
  intros v w m mt R M. unfold copy_assign, t_copy_assign. go (sim_copy_construct w m mt R M); [|fin].
  go (sim_destruct v _ _ R1); [fin|exact I].
Qed.
Lemma sim_move_assign : forall v w m mt, Rel m mt -> sim (move_assign v w m) (t_move_assign v w mt).
Proof.
  intros v w m mt R. unfold move_assign, t_move_assign. go (sim_destroy_all v m mt R); [|exact I].
  go (sim_free_raw (vraw v) _ _ R1); [fin|exact I].
Qed.
End Sim.
