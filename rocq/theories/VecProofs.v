(* Element loops and raw_vector of VecModel: each leaves the block it works on in
   a known state, or throws leaving it in a known state, and is never Bad. *)
From Coq Require Import List Bool Arith Lia.
From Verif Require Import VecModel.
Import ListNotations.

Set Default Proof Using "Type".
Section Proofs.
Context {V : Type}.
Variable fails nomem : nat -> bool.
Variable half : nat.

Notation mem := (@mem V).
Notation src := (@src V).
Notation cell := (@cell V).

Definition somes (xs : list V) : list cell := map Some xs.
Definition raws (n : nat) : list cell := repeat None n.
Definition others (b : nat) (m m' : mem) : Prop :=
  (forall b', b' <> b -> blk m' b' = blk m b') /\ next m' = next m.
Definition throws : Prop := exists t, fails t = true.
Definition oom : Prop := exists t, nomem t = true.

Lemma others_refl : forall b m, others b m m.
Proof. intros; split; auto. Qed.
Lemma others_trans : forall b m1 m2 m3, others b m1 m2 -> others b m2 m3 -> others b m1 m3.
Proof. intros b m1 m2 m3 [H1 E1] [H2 E2]; split; [intros b' H; rewrite H2, H1 by auto; auto | lia]. Qed.

Lemma somes_app : forall a b, somes (a ++ b) = somes a ++ somes b.
Proof. intros; apply map_app. Qed.
Lemma somes_len : forall a, length (somes a) = length a.
Proof. intros; apply map_length. Qed.
Lemma raws_len : forall n, length (raws n) = n.
Proof. intros; apply repeat_length. Qed.
Lemma raws_app : forall n k, raws (n + k) = raws n ++ raws k.
Proof. intros; apply repeat_app. Qed.
Lemma raws_S : forall n, raws (S n) = None :: raws n. Proof. reflexivity. Qed.
Lemma forallb_raws : forall n, forallb raw (raws n) = true.
Proof. induction n; simpl; auto. Qed.

Lemma nth_mid : forall (A C : list cell) x, nth_error (A ++ x :: C) (length A) = Some x.
Proof. induction A; simpl; auto. Qed.
Lemma put_mid : forall (A C : list cell) x y, put (A ++ x :: C) (length A) y = A ++ y :: C.
Proof. induction A; simpl; intros; auto; f_equal; auto. Qed.
Lemma nth_put_ne : forall (l : list cell) i j c, i <> j -> nth_error (put l i c) j = nth_error l j.
Proof. induction l; destruct i, j; simpl; intros; auto; try lia. Qed.
Lemma nth_put_eq : forall (l : list cell) i c, i < length l -> nth_error (put l i c) i = Some c.
Proof. induction l; destruct i; simpl; intros; auto; try lia. apply IHl; lia. Qed.

Lemma blk_set_eq : forall (m : mem) b l, blk (set_blk m b l) b = l.
Proof. intros; simpl; rewrite Nat.eqb_refl; auto. Qed.
Lemma blk_set_ne : forall (m : mem) b b' l, b' <> b -> blk (set_blk m b l) b' = blk m b'.
Proof. intros; simpl; destruct (Nat.eqb_spec b' b); congruence. Qed.
Lemma others_set : forall (m : mem) b l, others b m (set_blk m b l).
Proof. split; [intros; apply blk_set_ne; auto | reflexivity]. Qed.

(* ---- destroy ---- *)
Lemma destroy_n_spec : forall xs b A C (m : mem),
  blk m b = Some (A ++ somes xs ++ C) ->
  exists m', destroy_n (length xs) b (length A) m = Ok tt m'
    /\ blk m' b = Some (A ++ raws (length xs) ++ C) /\ others b m m'.
Proof.
  induction xs as [|x xs IH]; intros b A C m H.
  - exists m; simpl; auto using others_refl.
  - cbn [length destroy_n]. unfold destroy1. rewrite H. cbn [somes map app].
    rewrite nth_mid, put_mid.
    set (m1 := set_blk m b _).
    destruct (IH b (A ++ [None]) C m1) as (m' & E & B & O).
    { unfold m1; rewrite blk_set_eq, <- app_assoc; reflexivity. }
    rewrite app_length, Nat.add_1_r in E. exists m'; split; [exact E|]. split.
    + rewrite B, <- app_assoc; reflexivity.
    + eapply others_trans; [apply others_set | exact O].
Qed.

Lemma destroy_spec : forall xs b A C (m : mem) i j,
  blk m b = Some (A ++ somes xs ++ C) -> i = length A -> j = length A + length xs ->
  exists m', destroy b i j m = Ok tt m'
    /\ blk m' b = Some (A ++ raws (length xs) ++ C) /\ others b m m'.
Proof.
  intros xs b A C m i j H -> ->. unfold destroy.
  destruct (Nat.ltb_spec (length A + length xs) (length A)); [lia|].
  replace (length A + length xs - length A) with (length xs) by lia.
  apply destroy_n_spec; auto.
Qed.

(* ---- construction of consecutive cells ---- *)
Lemma read_put : forall (m : mem) b i v l s w,
  blk m b = Some l -> nth_error l i = Some None -> read m s = Some w ->
  read (step (set_blk m b (Some (put l i (Some v))))) s = Some w.
Proof.
  intros m b i v l [x|b' j] w Hb Hn Hr; simpl in *; auto.
  destruct (Nat.eqb_spec b' b) as [->|]; auto.
  rewrite Hb in Hr. destruct (Nat.eq_dec i j) as [->|Hij].
  - rewrite Hn in Hr; discriminate.
  - rewrite nth_put_ne; auto.
Qed.

Lemma Forall2_impl : forall {A B} (P Q : A -> B -> Prop) l1 l2,
  (forall a b, P a b -> Q a b) -> Forall2 P l1 l2 -> Forall2 Q l1 l2.
Proof. intros A B P Q l1 l2 H F; induction F; constructor; auto. Qed.

Definition reads (m : mem) (s : src) (v : V) : Prop := read m s = Some v.

Lemma copy_spec : forall ss vals b A C (m : mem),
  Forall2 (reads m) ss vals ->
  blk m b = Some (A ++ raws (length ss) ++ C) ->
  match copy fails b (length A) ss m with
  | Ok d m' => d = length A + length ss /\ blk m' b = Some (A ++ somes vals ++ C) /\ others b m m'
  | Exc d m' => exists k, k < length ss /\ d = length A + k /\
      blk m' b = Some (A ++ somes (firstn k vals) ++ raws (length ss - k) ++ C) /\ others b m m' /\ throws
  | Bad => False
  end.
Proof.
  induction ss as [|s ss IH]; intros vals b A C m HF HB.
  - inversion HF; subst. simpl. rewrite Nat.add_0_r. auto using others_refl.
  - inversion HF as [|? v ? vs Hv HF']; subst. cbn [copy]. unfold construct.
    rewrite HB. cbn [length]. rewrite raws_S. cbn [app]. rewrite nth_mid.
    unfold reads in Hv; rewrite Hv, put_mid.
    destruct (fails (tick m)) eqn:Ef.
    + exists 0. split; [simpl; lia|]. split; [lia|]. split; [exact HB|]. split; [|exists (tick m); auto].
      split; reflexivity.
    + set (m1 := step _).
      assert (H1 : blk m1 b = Some ((A ++ [Some v]) ++ raws (length ss) ++ C)).
      { unfold m1; simpl. rewrite Nat.eqb_refl, <- app_assoc; reflexivity. }
      assert (O1 : others b m m1).
      { unfold m1; split; [intros b' Hb'; simpl; destruct (Nat.eqb_spec b' b); congruence | reflexivity]. }
      assert (F1 : Forall2 (reads m1) ss vs).
      { eapply Forall2_impl; [|exact HF']. intros s' v' Hr. unfold reads in *.
        unfold m1. rewrite <- (put_mid A (raws (length ss) ++ C) None (Some v)).
        eapply read_put; eauto. apply nth_mid. }
      specialize (IH vs b (A ++ [Some v]) C m1 F1 H1).
      replace (length (A ++ [Some v])) with (S (length A)) in IH by (rewrite app_length; simpl; lia).
      destruct (copy fails b (S (length A)) ss m1) as [d m'|d m'|].
      * destruct IH as (E & B & O). repeat split; [lia| | |].
        { rewrite B, <- app_assoc; reflexivity. } { eapply others_trans; eauto. }
        { destruct O1, O; lia. }
      * destruct IH as (k & Hk & E & B & O & T). exists (S k). repeat split; try lia; auto.
        { rewrite B, <- app_assoc; reflexivity. }
        { intros b' Hb'. destruct O as [O _], O1 as [O1 _]. rewrite O, O1; auto. }
        { destruct O1, O; lia. }
      * auto.
Qed.

Lemma fill_spec : forall n s v b A C (m : mem) i j,
  reads m s v -> blk m b = Some (A ++ raws n ++ C) -> i = length A -> j = length A + n ->
  match fill fails b i j s m with
  | Ok d m' => d = length A + n /\ blk m' b = Some (A ++ somes (repeat v n) ++ C) /\ others b m m'
  | Exc d m' => exists k, k < n /\ d = length A + k /\
      blk m' b = Some (A ++ somes (repeat v k) ++ raws (n - k) ++ C) /\ others b m m' /\ throws
  | Bad => False
  end.
Proof.
  intros n s v b A C m i j Hr HB -> ->. unfold fill.
  destruct (Nat.ltb_spec (length A + n) (length A)); [lia|].
  replace (length A + n - length A) with n by lia.
  assert (HF : Forall2 (reads m) (repeat s n) (repeat v n)).
  { clear - Hr. induction n; simpl; constructor; auto. }
  pose proof (copy_spec (repeat s n) (repeat v n) b A C m HF) as S.
  rewrite repeat_length in S. specialize (S HB).
  destruct (copy fails b (length A) (repeat s n) m); auto.
  destruct S as (k & Hk & E & B & O & T). exists k. repeat split; auto; try (destruct O; auto; fail).
  rewrite B. do 2 f_equal. f_equal. f_equal.
  clear - Hk. revert k Hk; induction n; intros [|k] H; simpl; auto; try lia. f_equal; apply IHn; lia.
Qed.

Lemma reads_seq : forall (m : mem) b A xs C,
  blk m b = Some (A ++ somes xs ++ C) ->
  Forall2 (reads m) (map (Ref b) (seq (length A) (length xs))) xs.
Proof.
  intros m b A xs; revert A. induction xs as [|x xs IH]; intros A C H; simpl; constructor.
  - unfold reads; simpl. rewrite H. cbn [somes map app]. rewrite nth_mid. auto.
  - replace (S (length A)) with (length (A ++ [Some x])) by (rewrite app_length; simpl; lia).
    apply (IH _ C). rewrite <- app_assoc. exact H.
Qed.

Lemma transfer_spec : forall xs bs B D b A C (m : mem) i j d,
  blk m bs = Some (B ++ somes xs ++ D) -> i = length B -> j = length B + length xs ->
  blk m b = Some (A ++ raws (length xs) ++ C) -> d = length A ->
  match transfer fails bs i j b d m with
  | Ok d' m' => d' = length A + length xs /\ blk m' b = Some (A ++ somes xs ++ C) /\ others b m m'
  | Exc d' m' => exists k, k < length xs /\ d' = length A + k /\
      blk m' b = Some (A ++ somes (firstn k xs) ++ raws (length xs - k) ++ C) /\ others b m m' /\ throws
  | Bad => False
  end.
Proof.
  intros xs bs B D b A C m i j d HS -> -> HB ->. unfold transfer.
  destruct (Nat.ltb_spec (length B + length xs) (length B)); [lia|].
  replace (length B + length xs - length B) with (length xs) by lia.
  pose proof (copy_spec (map (Ref bs) (seq (length B) (length xs))) xs b A C m (reads_seq _ _ _ _ _ HS)) as S.
  rewrite map_length, seq_length in S. apply S; auto.
Qed.

(* ---- moving to the left over live cells ---- *)
Lemma skipn_cons : forall {A} n (l : list A) x, nth_error l n = Some x -> skipn n l = x :: skipn (S n) l.
Proof. induction n; destruct l; simpl; intros; try discriminate. congruence. apply IHn; auto. Qed.

Lemma left_spec : forall n e W b A C (m : mem),
  0 < e -> length W = e + n ->
  blk m b = Some (A ++ somes W ++ C) ->
  match left_n fails n b (length A + e) (length A) m with
  | Ok d m' => d = length A + n /\ blk m' b = Some (A ++ somes (skipn e W) ++ somes (skipn n W) ++ C) /\ others b m m'
  | Exc d m' => exists k, k < n /\ d = length A + k /\
      blk m' b = Some (A ++ somes (firstn k (skipn e W)) ++ None :: somes (skipn (S k) W) ++ C) /\ others b m m' /\ throws
  | Bad => False
  end.
Proof.
  induction n as [|n IH]; intros e W b A C m He HW HB.
  - simpl. rewrite Nat.add_0_r. repeat split; auto. rewrite skipn_all2 by lia. simpl. auto.
  - cbn [left_n]. destruct W as [|w W]; [simpl in HW; lia|].
    unfold destroy1. rewrite HB. cbn [somes map app]. rewrite nth_mid, put_mid.
    set (m1 := set_blk m b _).
    assert (B1 : blk m1 b = Some (A ++ None :: somes W ++ C)) by apply blk_set_eq.
    destruct e as [|e]; [lia|]. simpl in HW.
    destruct (nth_error W e) as [y|] eqn:Ey.
    2:{ apply nth_error_None in Ey. lia. }
    assert (R1 : read m1 (Ref b (length A + S e)) = Some y).
    { unfold read. rewrite B1. rewrite nth_error_app2 by lia.
      replace (length A + S e - length A) with (S e) by lia. simpl.
      rewrite nth_error_app1 by (rewrite somes_len; lia). unfold somes. rewrite nth_error_map, Ey. auto. }
    unfold construct. rewrite B1, nth_mid, R1, put_mid.
    assert (O1 : others b m m1) by apply others_set.
    destruct (fails (tick m1)) eqn:Ef.
    + exists 0. split; [lia|]. split; [lia|]. split; [exact B1|]. split; [exact O1|exists (tick m1); auto].
    + set (m2 := step _).
      assert (B2 : blk m2 b = Some ((A ++ [Some y]) ++ somes W ++ C)).
      { unfold m2; simpl. rewrite Nat.eqb_refl, <- app_assoc; auto. }
      assert (O2 : others b m m2).
      { unfold m2; split; [intros b' Hb'; simpl; destruct (Nat.eqb_spec b' b); congruence | reflexivity]. }
      specialize (IH (S e) W b (A ++ [Some y]) C m2 ltac:(lia) ltac:(lia) B2).
      replace (length (A ++ [Some y])) with (S (length A)) in IH by (rewrite app_length; simpl; lia).
      replace (S (length A + S e)) with (S (length A) + S e) by lia.
      assert (SK : skipn (S e) (w :: W) = y :: skipn (S e) W) by (cbn [skipn]; apply skipn_cons; auto).
      destruct (left_n fails n b (S (length A) + S e) (S (length A)) m2) as [d m'|d m'|]; auto.
      * destruct IH as (E & B & O). split; [lia|]. split; [|eapply others_trans; eauto].
        rewrite SK, B, <- app_assoc. reflexivity.
      * destruct IH as (k & Hk & E & B & O & T). exists (S k). split; [lia|]. split; [lia|].
        split; [|split; [eapply others_trans; eauto|auto]].
        rewrite SK, B, <- app_assoc. reflexivity.
Qed.

(* ---- moving to the right over live cells ---- *)
Lemma right_spec : forall n e W b A C (m : mem),
  0 < e -> length W = n + e ->
  blk m b = Some (A ++ somes W ++ C) ->
  match right_n fails n b (length A + n) (length A + n + e) m with
  | Ok d m' => d = length A + e /\ blk m' b = Some (A ++ somes (firstn e W) ++ somes (firstn n W) ++ C) /\ others b m m'
  | Exc d m' => exists k, k < n /\ d = length A + n + e - k /\
      blk m' b = Some (A ++ somes (firstn (n + e - 1 - k) W) ++ None :: somes (skipn (n - k) (firstn n W)) ++ C)
      /\ others b m m' /\ throws
  | Bad => False
  end.
Proof.
  induction n as [|n IH]; intros e W b A C m He HW HB.
  - simpl. repeat split; auto; try lia. rewrite firstn_all2 by lia. auto.
  - destruct (exists_last (l := W)) as (W' & w & ->). { intros ->; simpl in HW; lia. }
    rewrite app_length in HW; simpl in HW.
    cbn [right_n].
    assert (HB0 : blk m b = Some ((A ++ somes W') ++ Some w :: C)).
    { rewrite HB, somes_app, <- !app_assoc. reflexivity. }
    assert (L0 : length (A ++ somes W') = length A + n + e) by (rewrite app_length, somes_len; lia).
    replace (pred (length A + S n + e)) with (length (A ++ somes W')) by lia.
    unfold destroy1. rewrite HB0, nth_mid, put_mid.
    set (m1 := set_blk m b _).
    assert (B1 : blk m1 b = Some ((A ++ somes W') ++ None :: C)) by apply blk_set_eq.
    destruct (nth_error W' n) as [y|] eqn:Ey.
    2:{ apply nth_error_None in Ey. lia. }
    replace (pred (length A + S n)) with (length A + n) by lia.
    assert (R1 : read m1 (Ref b (length A + n)) = Some y).
    { unfold read. rewrite B1. rewrite nth_error_app1 by lia. rewrite nth_error_app2 by lia.
      replace (length A + n - length A) with n by lia. unfold somes. rewrite nth_error_map, Ey. auto. }
    unfold construct. rewrite B1, nth_mid, R1, put_mid.
    assert (O1 : others b m m1) by apply others_set.
    assert (FN : firstn (S n) (W' ++ [w]) = firstn n W' ++ [y]).
    { rewrite firstn_app. replace (S n - length W') with 0 by lia. rewrite firstn_O, app_nil_r.
      clear - Ey. revert W' Ey. induction n; destruct W'; simpl; intros; try discriminate.
      - congruence. - f_equal. apply IHn; auto. }
    destruct (fails (tick m1)) eqn:Ef.
    + exists 0. split; [lia|]. split; [lia|]. split; [|split; [exact O1|exists (tick m1); auto]].
      simpl blk. unfold m1. rewrite Nat.eqb_refl. f_equal.
      rewrite <- app_assoc. f_equal. f_equal.
      * f_equal. rewrite firstn_app. replace (S n + e - 1 - 0 - length W') with 0 by lia.
        rewrite firstn_O, app_nil_r, firstn_all2 by lia. auto.
      * rewrite skipn_all2; auto. rewrite FN, app_length, firstn_length. simpl. lia.
    + set (m2 := step _).
      assert (B2 : blk m2 b = Some (A ++ somes W' ++ Some y :: C)).
      { unfold m2; simpl. rewrite Nat.eqb_refl, <- app_assoc; auto. }
      assert (O2 : others b m m2).
      { unfold m2; split; [intros b' Hb'; simpl; destruct (Nat.eqb_spec b' b); congruence | reflexivity]. }
      specialize (IH e W' b A (Some y :: C) m2 He ltac:(lia) B2). rewrite L0.
      destruct (right_n fails n b (length A + n) (length A + n + e) m2) as [d m'|d m'|]; auto.
      * destruct IH as (E & B & O). split; [lia|]. split; [|eapply others_trans; eauto].
        rewrite FN, B. rewrite firstn_app. replace (e - length W') with 0 by lia.
        rewrite firstn_O, app_nil_r. rewrite somes_app, <- !app_assoc. reflexivity.
      * destruct IH as (k & Hk & E & B & O & T). exists (S k). split; [lia|]. split; [lia|].
        split; [|split; [eapply others_trans; eauto|auto]].
        rewrite FN, B. f_equal. f_equal. f_equal.
        { f_equal. rewrite firstn_app. replace (S n + e - 1 - S k) with (n + e - 1 - k) by lia.
          replace (n + e - 1 - k - length W') with 0 by lia. rewrite firstn_O, app_nil_r. auto. }
        f_equal. replace (S n - S k) with (n - k) by lia.
        rewrite skipn_app. rewrite firstn_length. replace (n - k - Nat.min n (length W')) with 0 by lia.
        cbn [skipn]. rewrite somes_app, <- app_assoc. reflexivity.
Qed.
End Proofs.
