From Coq Require Import List Bool Arith Lia.
From Verif Require Import ViewModel ViewSpec ViewProofs VdbgModel VdbgSpec.
Import ListNotations.

Section Proofs.
Context {V : Type}.
Notation memory := (list (cell V)).

Lemma lift_stop {A} (r : res A) : lift r <> Stop.
Proof. destruct r; discriminate. Qed.

Lemma after_stop {A B} (x : out A) (f : A -> out B) : x <> Stop -> (forall a, f a <> Stop) -> after x f <> Stop.
Proof. destruct x; cbn; congruence. Qed.

Lemma change_stop (x : out (memory * view)) : change x = Stop <-> x = Stop.
Proof. destruct x; cbn; split; congruence. Qed.

Lemma reading_stop m v (x : out (cell V)) : reading m v x = Stop <-> x = Stop.
Proof. destruct x; cbn; split; congruence. Qed.

Lemma req_true {A} debug (k : out A) : requires debug true k = k.
Proof. unfold requires. rewrite andb_false_r. reflexivity. Qed.

Lemma req_stop {A} (b : bool) (k : out A) : (b = true -> k <> Stop) -> requires true b k = Stop <-> b = false.
Proof. unfold requires. destruct b; cbn; intros H; split; intros E; try reflexivity; try discriminate. destruct (H eq_refl E). Qed.

Lemma empty_size (m : memory) v : valid m v -> empty v = (size v =? 0).
Proof.
  intros (A & B & C). unfold empty, size. destruct (Nat.eqb_spec (m_begin v) (m_end v)), (Nat.eqb_spec (m_end v - m_begin v) 0); auto; lia.
Qed.

Lemma dresize_stop (m : memory) v n : dresize_ true m v n = Stop <-> m_max v < n.
Proof.
  unfold dresize_. rewrite req_stop by (intros; apply lift_stop). rewrite Nat.leb_gt. reflexivity.
Qed.

Lemma dresize_go (m : memory) debug v n : n <= m_max v -> dresize_ debug m v n = lift (resize_ m v n).
Proof. intros H. unfold dresize_. apply Nat.leb_le in H. rewrite H. apply req_true. Qed.

Lemma resize_form (m : memory) v n v' : resize_ m v n = Ok v' -> v' = MkView (m_begin v) (m_begin v + n) (m_max v).
Proof. unfold resize_, next. destruct (_ <=? _); cbn; congruence. Qed.

Hint Resolve lift_stop : core.

Ltac quiet := repeat (apply after_stop; [|intros ?]); auto; try discriminate; try (intros ?; discriminate).

Lemma prepare_stop trivial (m : memory) v p n : valid m v ->
  dprepare_insert true trivial m v p n = Stop <-> ~ (p <= m_end v /\ size v + n <= m_max v).
Proof.
  intros (A & B & C). unfold dprepare_insert.
  destruct (Nat.leb_spec p (m_end v)) as [Hp|Hp].
  2:{ cbn. split; [intros _; lia|reflexivity]. }
  rewrite req_true. destruct (Nat.eqb_spec n 0) as [->|N].
  { split; [discriminate|]. intros H. exfalso. apply H. unfold size. lia. }
  destruct (Nat.le_gt_cases (size v + n) (m_max v)) as [L|L].
  - rewrite dresize_go by exact L. split; [|tauto]. intros E. exfalso. revert E.
    apply after_stop; [auto|]. intros v1. destruct (_ <? _); [discriminate|]. quiet.
  - rewrite (proj2 (dresize_stop m v (size v + n)) L). split; [lia|reflexivity].
Qed.

Lemma erase_n_stop trivial (m : memory) v p n : valid m v -> n <= size v ->
  derase_n true trivial m v p n = Stop <-> m_end v < p.
Proof.
  intros (A & B & C) L. unfold derase_n. rewrite req_stop; [apply Nat.leb_gt|]. intros _.
  destruct (n =? 0); [discriminate|]. destruct (_ <? _); [discriminate|].
  apply after_stop; [auto|]. intros m1. destruct (Nat.ltb_spec (size v) n); [lia|].
  rewrite dresize_go by (unfold size in *; lia). quiet.
Qed.

Lemma stops trivial (o : call V) (m : memory) v : valid m v ->
  exec true trivial o m v = Stop <-> ~ checked (m_max v) (m_begin v) (size v) o.
Proof.
  intros W. pose proof W as (A & B & C). pose proof (empty_size m v W) as E0.
  assert (En : m_end v = m_begin v + size v) by (unfold size; lia).
  destruct o as [n c|n|n c|i c|i|i| | | |c| |p a|p l| |p|p q]; cbn [exec checked]; rewrite ?change_stop, ?reading_stop.
  - unfold dassign. destruct (Nat.le_gt_cases n (m_max v)) as [L|L].
    + rewrite dresize_go by exact L. split; [|lia]. intros E. exfalso. revert E. quiet.
    + rewrite (proj2 (dresize_stop m v n) L). split; [lia|reflexivity].
  - unfold dresize. destruct (Nat.eqb_spec n (size v)) as [->|N].
    + split; [discriminate|]. unfold size. lia.
    + destruct (Nat.le_gt_cases n (m_max v)) as [L|L].
      * rewrite dresize_go by exact L. split; [|lia]. intros E. exfalso. revert E. quiet.
      * rewrite (proj2 (dresize_stop m v n) L). split; [lia|reflexivity].
  - unfold dresize_with. destruct (Nat.ltb_spec n (size v)) as [N|N].
    + rewrite dresize_go by (unfold size in *; lia). split; [|unfold size in *; lia]. intros E. exfalso. revert E. quiet.
    + destruct (Nat.ltb_spec (size v) n) as [M|M].
      * destruct (Nat.le_gt_cases n (m_max v)) as [L|L].
        -- rewrite dresize_go by exact L. split; [|lia]. intros E. exfalso. revert E. quiet.
        -- rewrite (proj2 (dresize_stop m v n) L). split; [lia|reflexivity].
      * split; [discriminate|]. unfold size in *. lia.
  - unfold dset_index, requires. cbn [andb]. destruct (Nat.ltb_spec i (size v)); cbn [negb after].
    + split; [|lia]. intros E. exfalso. revert E. quiet.
    + split; [lia|reflexivity].
  - unfold dindex. rewrite req_stop by auto. rewrite Nat.ltb_ge. lia.
  - unfold dat, dindex, requires. cbn [andb]. destruct (Nat.leb_spec (size v) i) as [L|L].
    + split; [discriminate|tauto].
    + apply Nat.ltb_lt in L. rewrite L. cbn. split; [|tauto]. intros E. destruct (lift_stop _ E).
  - split; [|tauto]. intros E. destruct (lift_stop _ E).
  - split; [|tauto]. intros E. destruct (lift_stop _ E).
  - split; [|tauto]. intros E. destruct (lift_stop _ E).
  - unfold dpush_back. rewrite req_stop by auto. rewrite Nat.ltb_ge. lia.
  - unfold dpop_back. rewrite req_stop by auto. rewrite E0, negb_false_iff, Nat.eqb_eq. lia.
  - unfold dinsert. rewrite <- En. split.
    + intros E H. revert E. apply after_stop.
      * rewrite (prepare_stop _ _ _ _ _ W). intros N. apply N. lia.
      * intros [m1 v1]. quiet.
    + intros H. rewrite (proj2 (prepare_stop trivial m v p 1 W)); [reflexivity|]. lia.
  - unfold dinsert_range. rewrite <- En. split.
    + intros E H. revert E. apply after_stop.
      * rewrite (prepare_stop _ _ _ _ _ W). intros N. apply N. lia.
      * intros [m1 v1]. quiet.
    + intros H. rewrite (proj2 (prepare_stop trivial m v p (length l) W)); [reflexivity|]. lia.
  - split; [tauto|reflexivity].
  - unfold derase. rewrite E0. destruct (Nat.eqb_spec (size v) 0) as [Z|Z]; cbn [negb].
    + split; [lia|reflexivity].
    + rewrite req_true. rewrite (erase_n_stop _ _ _ _ _ W) by lia. lia.
  - unfold derase_range, requires at 1 2. cbn [andb].
    destruct (Nat.leb_spec p q); cbn [negb]; [|split; [lia|reflexivity]].
    destruct (Nat.leb_spec (q - p) (size v)); cbn [negb]; [|split; [lia|reflexivity]].
    rewrite (erase_n_stop _ _ _ _ _ W) by lia. lia.
Qed.

(* with the assertions on, what does not stop is what a release build does *)
Lemma req_release {A} b (k1 k2 : out A) : (k1 <> Stop -> k1 = k2) -> requires true b k1 <> Stop -> requires true b k1 = requires false b k2.
Proof. unfold requires. destruct b; cbn; intros H N; [auto|congruence]. Qed.

Lemma after_release {A B} (x1 x2 : out A) (f1 f2 : A -> out B) : (x1 <> Stop -> x1 = x2) -> (forall a, f1 a <> Stop -> f1 a = f2 a) ->
  after x1 f1 <> Stop -> after x1 f1 = after x2 f2.
Proof.
  intros H G N. destruct x1; cbn in *.
  - rewrite <- H by discriminate. cbn. auto.
  - congruence.
  - rewrite <- H by discriminate. reflexivity.
  - rewrite <- H by discriminate. reflexivity.
Qed.

Lemma release trivial (o : call V) (m : memory) v : exec true trivial o m v <> Stop -> exec true trivial o m v = exec false trivial o m v.
Proof.
  assert (R : forall m v n, dresize_ true m v n <> Stop -> dresize_ true m v n = @dresize_ V false m v n).
  { intros m' v' n'. apply req_release. auto. }
  assert (P : forall m v p n, dprepare_insert true trivial m v p n <> Stop -> dprepare_insert true trivial m v p n = @dprepare_insert V false trivial m v p n).
  { intros m' v' p n. apply req_release. destruct (n =? 0); [auto|]. apply after_release; [apply R|]. intros v1. destruct (_ <? _); auto. }
  assert (X : forall m v p n, derase_n true trivial m v p n <> Stop -> derase_n true trivial m v p n = @derase_n V false trivial m v p n).
  { intros m' v' p n. apply req_release. destruct (n =? 0); [auto|]. destruct (_ <? _); [auto|]. apply after_release; [auto|]. intros m1.
    destruct (_ <? _); [apply req_release; auto|]. apply after_release; [apply R|auto]. }
  destruct o as [n c|n|n c|i c|i|i| | | |c| |p a|p l| |p|p q]; cbn [exec]; unfold change, reading; try (intros; reflexivity);
  try (apply after_release; [|auto]).
  - apply after_release; [apply R|auto].
  - unfold dresize. destruct (_ =? _); [auto|]. apply after_release; [apply R|auto].
  - unfold dresize_with. destruct (_ <? _); [apply after_release; [apply R|auto]|]. destruct (_ <? _); [|auto].
    apply after_release; [apply R|auto].
  - apply after_release; [|auto]. apply req_release. auto.
  - apply req_release. auto.
  - unfold dat. destruct (_ <=? _); [auto|]. apply req_release. auto.
  - apply req_release. auto.
  - apply req_release. auto.
  - apply after_release; [apply P|auto].
  - apply after_release; [apply P|auto].
  - apply req_release. auto.
  - apply req_release. apply X.
  - apply req_release. apply req_release. destruct (_ <=? _); [apply X|]. destruct (_ <? _); [auto|].
    apply after_release; [auto|]. intros _. apply after_release; [auto|]. intros m1. apply after_release; [apply R|auto].
Qed.

Lemma keeps_checked n b k (o : call V) : k <= n -> keeps n b k o -> checked n b k o /\ ~ gap b k o.
Proof. destruct o as [j c|j|j c|i c|i|i| | | |c| |p [c|i]|p l| |p|p q]; cbn; lia. Qed.

Lemma checked_keeps n b k (o : call V) : checked n b k o -> ~ gap b k o -> keeps n b k o.
Proof. destruct o as [j c|j|j c|i c|i|i| | | |c| |p [c|i]|p l| |p|p q]; cbn; lia. Qed.

(* a call within the contract is the operation of ViewModel *)
Lemma lift_bind {A B} (r : res A) (f : A -> res B) : lift (bind r f) = after (lift r) (fun a => lift (f a)).
Proof. destruct r; reflexivity. Qed.

Lemma after_ext {A B} (x : out A) (f g : A -> out B) : (forall a, x = Go a -> f a = g a) -> after x f = after x g.
Proof. destruct x; cbn; auto. Qed.

Lemma prepare_same debug trivial (m : memory) v pos n : valid m v -> pos <= size v -> size v + n <= m_max v ->
  dprepare_insert debug trivial m v (m_begin v + pos) n = lift (prepare_insert trivial m v pos n).
Proof.
  intros (A & B & C) H L. unfold dprepare_insert, prepare_insert.
  replace (m_begin v + pos <=? m_end v) with true by (symmetry; apply Nat.leb_le; unfold size in *; lia). rewrite req_true.
  destruct (n =? 0); [reflexivity|]. rewrite dresize_go by exact L. rewrite lift_bind.
  apply after_ext. intros v1 E. destruct (resize_ m v (size v + n)) eqn:R; try discriminate. injection E as ->.
  rewrite (resize_form _ _ _ _ R). cbn [m_end m_begin].
  destruct (Nat.ltb_spec (m_begin v + (size v + n)) (m_begin v + pos)); [lia|]. rewrite lift_bind.
  apply after_ext. intros _ _. rewrite lift_bind. reflexivity.
Qed.

Lemma erase_same debug trivial (m : memory) v pos n : valid m v -> pos + n <= size v ->
  derase_n debug trivial m v (m_begin v + pos) n = lift (erase_n trivial m v pos n).
Proof.
  intros (A & B & C) H. unfold derase_n, erase_n.
  replace (m_begin v + pos <=? m_end v) with true by (symmetry; apply Nat.leb_le; unfold size in *; lia). rewrite req_true.
  destruct (n =? 0); [reflexivity|].
  destruct (Nat.ltb_spec (m_end v) (m_begin v + pos + n)); [unfold size in *; lia|]. rewrite lift_bind.
  apply after_ext. intros m1 _. destruct (Nat.ltb_spec (size v) n); [lia|].
  rewrite dresize_go by (unfold size in *; lia). rewrite lift_bind. reflexivity.
Qed.

Lemma same_op debug trivial (o : call V) (m : memory) v p : valid m v -> keeps (m_max v) (m_begin v) (size v) o ->
  as_op (m_begin v) o = Some p ->
  exec debug trivial o m v = after (lift (run_op trivial p m v)) (fun s => Go (s, None)).
Proof.
  intros W. pose proof W as (A & B & C). pose proof (empty_size m v W) as E0.
  destruct o as [n c|n|n c|i c|i|i| | | |c| |q a|q l| |q|q r]; cbn [as_op keeps exec]; intros K E; try discriminate;
  injection E as <-; unfold change; cbn [run_op]; f_equal.
  - unfold dassign, assign. rewrite dresize_go by exact K. rewrite lift_bind. apply after_ext. intros v1 _. rewrite lift_bind. reflexivity.
  - unfold dresize, resize. destruct (n =? size v); [reflexivity|]. rewrite dresize_go by exact K. rewrite lift_bind. reflexivity.
  - unfold dresize_with, resize_with. destruct (_ <? _); [rewrite dresize_go by exact K; rewrite lift_bind; reflexivity|].
    destruct (_ <? _); [|reflexivity]. rewrite dresize_go by exact K. rewrite lift_bind. apply after_ext. intros v1 _. rewrite lift_bind. reflexivity.
  - unfold dset_index. apply Nat.ltb_lt in K. rewrite K, req_true, lift_bind. reflexivity.
  - unfold dpush_back. apply Nat.ltb_lt in K. rewrite K, req_true. reflexivity.
  - unfold dpop_back. rewrite E0. destruct (Nat.eqb_spec (size v) 0); [lia|]. rewrite req_true. reflexivity.
  - destruct K as ((K1 & K2) & K3 & _). unfold dinsert, insert.
    replace q with (m_begin v + (q - m_begin v)) at 1 by lia. rewrite prepare_same by (auto; lia). rewrite lift_bind.
    apply after_ext. intros [m1 v1] _. rewrite lift_bind. apply after_ext. intros c _. rewrite lift_bind.
    replace (m_begin v + (q - m_begin v)) with q by lia. reflexivity.
  - destruct K as ((K1 & K2) & K3). unfold dinsert_range, insert_range.
    replace q with (m_begin v + (q - m_begin v)) at 1 by lia. rewrite prepare_same by (auto; lia). rewrite lift_bind.
    apply after_ext. intros [m1 v1] _. rewrite lift_bind.
    replace (m_begin v + (q - m_begin v)) with q by lia. reflexivity.
  - unfold derase, erase. rewrite E0. destruct (Nat.eqb_spec (size v) 0); [lia|]. cbn [negb]. rewrite req_true.
    replace q with (m_begin v + (q - m_begin v)) at 1 by lia. apply erase_same; [auto|lia].
  - destruct K as (K1 & K2 & K3). unfold derase_range, erase_range.
    replace (q <=? r) with true by (symmetry; apply Nat.leb_le; lia).
    replace (r - q <=? size v) with true by (symmetry; apply Nat.leb_le; lia). rewrite !req_true.
    replace q with (m_begin v + (q - m_begin v)) at 1 by lia. rewrite erase_same by (auto; lia).
    f_equal. f_equal. lia.
Qed.

Lemma keeps_contract (m : memory) v (o : call V) p : valid m v -> keeps (m_max v) (m_begin v) (size v) o ->
  as_op (m_begin v) o = Some p -> contract (m_max v) (content m v) p.
Proof.
  intros W. pose proof (length_content m v W) as LC.
  destruct o as [n c|n|n c|i c|i|i| | | |c| |q a|q l| |q|q r]; cbn [as_op keeps]; intros K E; try discriminate;
  injection E as <-; cbn [contract]; rewrite ?LC; auto; try lia.
  - intros Z. rewrite Z in LC. cbn in LC. lia.
  - destruct K as ((K1 & K2) & K3 & K4). repeat split; auto; lia.
Qed.

(* plain calls *)
Lemma plain_step trivial (o : call V) (m : memory) v : plain o -> valid m v ->
  match next_size (m_max v) (size v) o with
  | None => exec true trivial o m v = Stop
  | Some k =>
      (exec true trivial o m v = Thrown /\ exists i, o = At i /\ size v <= i /\ k = size v) \/
      exists m' v' x, exec true trivial o m v = Go (m', v', x) /\ valid m' v' /\ m_begin v' = m_begin v /\ m_max v' = m_max v /\
        size v' = k /\ outside_kept v m m' /\ does o (content m v) (content m' v') x
  end.
Proof.
  intros P W. pose proof W as (A & B & C). pose proof (length_content m v W) as LC.
  destruct (next_size (m_max v) (size v) o) as [k|] eqn:N.
  2:{ apply stops; [exact W|]. destruct o as [n c|n|n c|i c|i|i| | | |c| |q a|q l| |q|q r]; cbn [next_size checked plain] in *; try discriminate; try contradiction.
    - destruct (Nat.leb_spec n (m_max v)); [discriminate|lia].
    - destruct (Nat.leb_spec n (m_max v)); [discriminate|lia].
    - destruct (Nat.leb_spec n (m_max v)); [discriminate|lia].
    - destruct (Nat.ltb_spec i (size v)); [discriminate|lia].
    - destruct (Nat.ltb_spec i (size v)); [discriminate|lia].
    - destruct (Nat.ltb_spec (size v) (m_max v)); [discriminate|lia].
    - destruct (size v); [lia|discriminate]. }
  assert (K : keeps (m_max v) (m_begin v) (size v) o).
  { destruct o as [n c|n|n c|i c|i|i| | | |c| |q a|q l| |q|q r]; cbn [next_size keeps plain] in *; try contradiction; auto.
    - destruct (Nat.leb_spec n (m_max v)); [lia|discriminate].
    - destruct (Nat.leb_spec n (m_max v)); [lia|discriminate].
    - destruct (Nat.leb_spec n (m_max v)); [lia|discriminate].
    - destruct (Nat.ltb_spec i (size v)); [lia|discriminate].
    - destruct (Nat.ltb_spec i (size v)); [lia|discriminate].
    - destruct (Nat.ltb_spec (size v) (m_max v)); [lia|discriminate].
    - destruct (size v); [discriminate|lia]. }
  destruct (as_op (m_begin v) o) as [p|] eqn:O.
  - right. pose proof (same_op true trivial o m v p W K O) as E. pose proof (keeps_contract m v o p W K O) as Ct.
    assert (S : spared trivial (m_max v) (content m v) p).
    { destruct o; cbn in O, P; try discriminate; try contradiction; injection O as <-; exact I. }
    assert (O0 : as_op 0 o = Some p).
    { destruct o; cbn in O, P |- *; try discriminate; try contradiction; exact O. }
    destruct (op_ok trivial p m v W Ct S) as (m' & v' & R & W' & Eb & Em & Ok' & Ef).
    rewrite R in E. cbn [lift after] in E. exists m', v', None. split; [exact E|]. split; [exact W'|]. split; [exact Eb|].
    split; [exact Em|]. split; [|split; [exact Ok'|unfold does; rewrite O0; auto]].
    rewrite <- (length_content m' v' W').
    destruct o as [n c|n|n c|i c|i|i| | | |c| |q a|q l| |q|q r]; cbn in O, P; try discriminate; try contradiction; injection O as <-;
    cbn [effect next_size] in Ef, N.
    + destruct (_ <=? _); [|discriminate]. injection N as <-. rewrite Ef. apply repeat_length.
    + destruct (_ <=? _); [|discriminate]. injection N as <-. apply Ef.
    + destruct (_ <=? _); [|discriminate]. injection N as <-. rewrite Ef, app_length, firstn_length, repeat_length. lia.
    + cbn [keeps] in K. destruct (_ <? _); [|discriminate]. injection N as <-. rewrite Ef, app_length, firstn_length. cbn [length]. rewrite skipn_length. lia.
    + injection N as <-. rewrite Ef. reflexivity.
    + destruct (_ <? _); [|discriminate]. injection N as <-. rewrite Ef, app_length. cbn [length]. lia.
    + destruct Ef as (c & Ef). rewrite <- LC, Ef, app_length in N. cbn [length] in N. rewrite Nat.add_1_r in N. injection N as <-. reflexivity.
  - destruct o as [n c|n|n c|i c|i|i| | | |c| |q a|q l| |q|q r]; cbn in O, P, K; try discriminate; try contradiction.
    + right. cbn [next_size] in N. pose proof (proj2 (Nat.ltb_lt i (size v)) K) as KB. rewrite KB in N. injection N as <-. cbn [exec]. unfold dindex. rewrite KB, req_true.
      destruct (nth_error (content m v) i) as [c|] eqn:G; [|apply nth_error_None in G; lia].
      destruct (observe m v W) as (_ & _ & _ & Oi & _). rewrite (Oi i c G). cbn [lift reading after].
      exists m, v, (Some c). repeat split; auto; try lia; try (apply W); cbn; rewrite G; auto.
    + cbn [next_size] in N. injection N as <-. cbn [exec]. unfold dat. destruct (Nat.leb_spec (size v) i) as [L|L].
      * left. split; [reflexivity|]. exists i. auto.
      * right. unfold dindex. apply Nat.ltb_lt in L. rewrite L, req_true. apply Nat.ltb_lt in L.
        destruct (nth_error (content m v) i) as [c|] eqn:G; [|apply nth_error_None in G; lia].
        destruct (observe m v W) as (_ & _ & _ & Oi & _). rewrite (Oi i c G). cbn [lift reading after].
        exists m, v, (Some c). repeat split; auto; try lia; try (apply W); cbn; rewrite G; auto.
Qed.

Lemma plain_play trivial (os : list (call V)) : forall (m : memory) v, (forall o, In o os -> plain o) -> valid m v ->
  match sizes (m_max v) (size v) os with
  | None => play true trivial os m v = Stop
  | Some k => exists m' v', play true trivial os m v = Go (m', v') /\ valid m' v' /\ m_begin v' = m_begin v /\ m_max v' = m_max v /\
      size v' = k /\ outside_kept v m m' /\ leads os (content m v) (content m' v')
  end.
Proof.
  induction os as [|o os IH]; intros m v P W; cbn [sizes play].
  - exists m, v. repeat split; auto; try apply W. constructor.
  - pose proof (plain_step trivial o m v (P o (or_introl eq_refl)) W) as H.
    destruct (next_size (m_max v) (size v) o) as [k|]; [|rewrite H; reflexivity].
    destruct H as [(E & i & -> & L & ->)|(m1 & v1 & x & E & W1 & Eb & Em & Es & (Ol & Ok') & D)]; rewrite E.
    + specialize (IH m v (fun o H => P o (or_intror H)) W). destruct (sizes _ _ os) as [j|]; [|exact IH].
      destruct IH as (m' & v' & R & W' & Eb & Em & Es & Ok' & Ld). exists m', v'.
      repeat (split; [assumption|]). apply leads_thrown; [rewrite (length_content m v W); exact L|exact Ld].
    + specialize (IH m1 v1 (fun o H => P o (or_intror H)) W1). rewrite Em, Es in IH. destruct (sizes _ _ os) as [j|]; [|exact IH].
      destruct IH as (m' & v' & R & W' & Eb' & Em' & Es' & (Ol' & Ok'') & Ld). exists m', v'.
      split; [exact R|]. split; [exact W'|]. split; [congruence|]. split; [congruence|]. split; [exact Es'|]. split.
      * split; [congruence|]. intros q Q. rewrite Ok'' by (rewrite Eb, Em; exact Q). apply Ok'. exact Q.
      * econstructor; eassumption.
Qed.
End Proofs.
