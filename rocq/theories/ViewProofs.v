(* Proofs about vector_view. *)
From Coq Require Import List Bool Arith Lia.
From Verif Require Import ViewModel ViewSpec.
Import ListNotations.

Section Lists.
Context {A : Type}.

Lemma list_ext (l l' : list A) : (forall i, nth_error l i = nth_error l' i) -> l = l'.
Proof.
  revert l'. induction l as [|x l IH]; intros [|y l'] H; [reflexivity|specialize (H 0); discriminate..|].
  pose proof (H 0) as H0. injection H0 as ->. f_equal. apply IH. intros i. exact (H (S i)).
Qed.

Lemma nth_error_none (l : list A) i : length l <= i -> nth_error l i = None.
Proof. apply nth_error_None. Qed.

Lemma nth_error_firstn (l : list A) n i : nth_error (firstn n l) i = if i <? n then nth_error l i else None.
Proof.
  revert n i. induction l as [|x l IH]; intros [|n] [|i]; cbn [firstn nth_error]; try reflexivity.
  - destruct (S i <? S n); reflexivity.
  - rewrite IH. reflexivity.
Qed.

Lemma nth_error_skipn (l : list A) n i : nth_error (skipn n l) i = nth_error l (n + i).
Proof.
  revert n. induction l as [|x l IH]; intros [|n]; cbn [skipn nth_error plus]; try reflexivity.
  - destruct i; reflexivity.
  - apply IH.
Qed.

Lemma nth_error_app (l l' : list A) i :
  nth_error (l ++ l') i = if i <? length l then nth_error l i else nth_error l' (i - length l).
Proof.
  destruct (Nat.ltb_spec i (length l)); [apply nth_error_app1|apply nth_error_app2]; assumption.
Qed.

Lemma nth_error_repeat (x : A) n i : nth_error (repeat x n) i = if i <? n then Some x else None.
Proof.
  revert i. induction n as [|n IH]; intros [|i]; cbn [repeat nth_error]; try reflexivity. rewrite IH. reflexivity.
Qed.

Lemma nth_error_cons (x : A) l i : nth_error (x :: l) i = match i with 0 => Some x | S j => nth_error l j end.
Proof. destruct i; reflexivity. Qed.
End Lists.

Ltac cases :=
  repeat match goal with
  | |- context [?a <? ?b] => destruct (Nat.ltb_spec a b)
  | |- context [?a =? ?b] => destruct (Nat.eqb_spec a b)
  | |- context [?a <=? ?b] => destruct (Nat.leb_spec a b)
  end.

Section Proofs.
Context {V : Type}.
Notation memory := (list (cell V)).
Implicit Types (m : memory) (v : view).

Lemma length_put m p c : length (put m p c) = length m.
Proof. revert p. induction m as [|d m IH]; intros [|p]; cbn; auto. Qed.

Lemma nth_put m p c q : p < length m -> nth_error (put m p c) q = if q =? p then Some c else nth_error m q.
Proof.
  revert p q. induction m as [|d m IH]; intros [|p] [|q] H; cbn in *; try lia; try reflexivity.
  apply IH. lia.
Qed.

Lemma write_ok m p c : p < length m -> write m p c = Ok (put m p c).
Proof. intros H. unfold write. destruct (Nat.ltb_spec p (length m)); [reflexivity|lia]. Qed.

Lemma read_ok m p : p < length m -> exists c, read m p = Ok c /\ nth_error m p = Some c.
Proof.
  intros H. unfold read. destruct (nth_error m p) as [c|] eqn:E; [exists c; auto|].
  apply nth_error_None in E. lia.
Qed.

Lemma move_one_ok m from to : from < length m -> to < length m ->
  exists c m', nth_error m from = Some c /\ move_one m from to = Ok m' /\ length m' = length m /\
    forall q, nth_error m' q = if q =? to then Some c else if q =? from then Some Hollow else nth_error m q.
Proof.
  intros H1 H2. destruct (read_ok m from H1) as [c [R N]]. exists c. exists (put (put m from Hollow) to c).
  unfold move_one. rewrite R. cbn [bind]. rewrite (write_ok m from) by assumption. cbn [bind].
  rewrite write_ok by (rewrite length_put; assumption). rewrite !length_put. repeat split; [assumption|].
  intros q. rewrite nth_put by (rewrite length_put; assumption). rewrite nth_put by assumption. reflexivity.
Qed.

(* moving upwards over the range itself leaves nothing behind *)
Lemma move_up_ok n : forall m first d, 0 < d -> first + n + d <= length m ->
  exists m', move_up m first n (first + d) = Ok m' /\ length m' = length m /\
    (forall q, q < first -> nth_error m' q = nth_error m q) /\
    (forall q, first <= q < first + n -> nth_error m' q = Some Hollow) /\
    (forall q, first + n + d <= q -> nth_error m' q = nth_error m q).
Proof.
  induction n as [|n IH]; intros m first d D L.
  - exists m. cbn [move_up]. repeat split; auto. intros q Q. lia.
  - destruct (move_one_ok m first (first + d)) as [c [m1 [C [M [L1 N1]]]]]; [lia|lia|].
    cbn [move_up]. rewrite M. cbn [bind].
    destruct (IH m1 (S first) d D) as [m2 [M2 [L2 [A [B E]]]]]; [lia|].
    exists m2. replace (S (first + d)) with (S first + d) by lia. rewrite M2. split; [reflexivity|]. split; [lia|].
    split; [|split].
    + intros q Q. rewrite A by lia. rewrite N1. cases; try lia. reflexivity.
    + intros q Q. destruct (Nat.eq_dec q first) as [->|].
      * rewrite A by lia. rewrite N1. cases; try lia. reflexivity.
      * apply B. lia.
    + intros q Q. rewrite E by lia. rewrite N1. cases; try lia. reflexivity.
Qed.

Lemma move_up_ub n : forall m first d, 0 < d -> 0 < n -> length m < first + n + d -> move_up m first n (first + d) = UB.
Proof.
  induction n as [|n IH]; intros m first d D N L; [lia|]. cbn [move_up].
  destruct (Nat.ltb_spec (first + d) (length m)) as [H|H].
  - destruct (move_one_ok m first (first + d)) as [c [m1 [C [M [L1 N1]]]]]; [lia|lia|]. rewrite M. cbn [bind].
    replace (S (first + d)) with (S first + d) by lia. apply IH; lia.
  - unfold move_one, read. destruct (nth_error m first) as [c|] eqn:E; [|reflexivity]. cbn [bind].
    assert (first < length m) by (apply nth_error_Some; congruence).
    rewrite write_ok by assumption. cbn [bind]. unfold write. rewrite length_put.
    destruct (Nat.ltb_spec (first + d) (length m)); [lia|]. reflexivity.
Qed.

(* moving downwards by no less than the length of the range *)
Lemma move_down_ok n : forall m to d, n <= d -> to + d + n <= length m ->
  exists m', move_down m (to + d) n to = Ok m' /\ length m' = length m /\
    (forall q, to <= q < to + n -> nth_error m' q = nth_error m (q + d)) /\
    (forall q, q < to \/ to + n <= q < to + d \/ to + d + n <= q -> nth_error m' q = nth_error m q).
Proof.
  induction n as [|n IH]; intros m to d D L.
  - exists m. cbn [move_down]. repeat split; auto. intros q Q. lia.
  - destruct (move_one_ok m (to + d + n) (to + n)) as [c [m1 [C [M [L1 N1]]]]]; [lia|lia|].
    cbn [move_down]. rewrite M. cbn [bind].
    destruct (IH m1 to d) as [m2 [M2 [L2 [A B]]]]; [lia|lia|].
    exists m2. rewrite M2. split; [reflexivity|]. split; [lia|]. split.
    + intros q Q. destruct (Nat.eq_dec q (to + n)) as [->|NE].
      * rewrite B by lia. rewrite N1. cases; try lia. replace (to + n + d) with (to + d + n) by lia. symmetry. exact C.
      * rewrite A by lia. rewrite N1. cases; try lia. reflexivity.
    + intros q Q. rewrite B by lia. rewrite N1. cases; try lia. reflexivity.
Qed.

(* moving downwards by one: the last element slides down over the others *)
Lemma move_down_one n : forall m to, to + 1 + S n <= length m ->
  exists m', move_down m (to + 1) (S n) to = Ok m' /\ length m' = length m /\
    nth_error m' to = nth_error m (to + S n) /\
    (forall q, to < q <= to + S n -> nth_error m' q = Some Hollow) /\
    (forall q, q < to \/ to + 1 + S n <= q -> nth_error m' q = nth_error m q).
Proof.
  induction n as [|n IH]; intros m to L.
  - destruct (move_one_ok m (to + 1 + 0) (to + 0)) as [c [m1 [C [M [L1 N1]]]]]; [lia|lia|].
    cbn [move_down]. rewrite M. cbn [bind]. exists m1. split; [reflexivity|]. split; [assumption|]. split; [|split].
    + rewrite N1. cases; try lia. replace (to + 1) with (to + 1 + 0) by lia. auto.
    + intros q Q. rewrite N1. cases; try lia. reflexivity.
    + intros q Q. rewrite N1. cases; try lia. reflexivity.
  - destruct (move_one_ok m (to + 1 + S n) (to + S n)) as [c [m1 [C [M [L1 N1]]]]]; [lia|lia|].
    change (move_down m (to + 1) (S (S n)) to) with
      (bind (move_one m (to + 1 + S n) (to + S n)) (fun m1 => move_down m1 (to + 1) (S n) to)).
    rewrite M. cbn [bind]. destruct (IH m1 to) as [m2 [M2 [L2 [A [B E]]]]]; [lia|].
    exists m2. rewrite M2. split; [reflexivity|]. split; [lia|]. split; [|split].
    + rewrite A, N1. cases; try lia. replace (to + S (S n)) with (to + 1 + S n) by lia. auto.
    + intros q Q. destruct (Nat.eq_dec q (to + S (S n))) as [->|NE].
      * rewrite E by lia. rewrite N1. cases; try lia. reflexivity.
      * apply B. lia.
    + intros q Q. rewrite E by lia. rewrite N1. cases; try lia. reflexivity.
Qed.

Lemma memmove_ok m first n to : first + n <= length m -> to + n <= length m ->
  exists m', memmove m first n to = Ok m' /\ length m' = length m /\
    (forall q, to <= q < to + n -> nth_error m' q = nth_error m (q - to + first)) /\
    (forall q, q < to \/ to + n <= q -> nth_error m' q = nth_error m q).
Proof.
  intros L1 L2. unfold memmove. destruct (Nat.leb_spec (first + n) (length m)); [|lia].
  destruct (Nat.leb_spec (to + n) (length m)); [|lia]. cbn [andb]. eexists. split; [reflexivity|]. split; [|split].
  - rewrite !app_length, !firstn_length, !skipn_length. lia.
  - intros q Q. rewrite nth_error_app, firstn_length. cases; try lia.
    rewrite nth_error_app, firstn_length, skipn_length. cases; try lia.
    rewrite nth_error_firstn, nth_error_skipn. cases; try lia. f_equal. lia.
  - intros q Q. rewrite nth_error_app, firstn_length. cases; try lia.
    + rewrite nth_error_firstn. cases; try lia. reflexivity.
    + rewrite nth_error_app, firstn_length, skipn_length. cases; try lia. rewrite nth_error_skipn. f_equal. lia.
Qed.

Lemma memmove_ub m first n to : length m < to + n -> memmove m first n to = UB.
Proof.
  intros L. unfold memmove. destruct (Nat.leb_spec (to + n) (length m)); [lia|]. rewrite andb_false_r. reflexivity.
Qed.

Lemma fill_ok n : forall m first c, first + n <= length m ->
  exists m', fill m first n c = Ok m' /\ length m' = length m /\
    forall q, nth_error m' q = if (first <=? q) && (q <? first + n) then Some c else nth_error m q.
Proof.
  induction n as [|n IH]; intros m first c L.
  - exists m. repeat split. intros q. cases; cbn [andb]; try lia; reflexivity.
  - cbn [fill]. rewrite write_ok by lia. cbn [bind].
    destruct (IH (put m first c) (S first) c) as [m2 [M2 [L2 A]]]; [rewrite length_put; lia|].
    exists m2. rewrite M2, L2, length_put. repeat split. intros q. rewrite A. rewrite nth_put by lia.
    cases; cbn [andb]; try lia; reflexivity.
Qed.

Lemma copy_in_ok l : forall m first, first + length l <= length m ->
  exists m', copy_in m first l = Ok m' /\ length m' = length m /\
    forall q, nth_error m' q = if (first <=? q) && (q <? first + length l) then nth_error l (q - first) else nth_error m q.
Proof.
  induction l as [|c l IH]; intros m first L; cbn [length] in *.
  - exists m. repeat split. intros q. cases; cbn [andb]; try lia; reflexivity.
  - cbn [copy_in]. rewrite write_ok by lia. cbn [bind].
    destruct (IH (put m first c) (S first)) as [m2 [M2 [L2 A]]]; [rewrite length_put; lia|].
    exists m2. rewrite M2, L2, length_put. repeat split. intros q. rewrite A. rewrite nth_put by lia.
    cases; cbn [andb]; try lia; try reflexivity.
    + subst q. rewrite Nat.sub_diag. reflexivity.
    + replace (q - first) with (S (q - S first)) by lia. reflexivity.
Qed.

Lemma next_ok m p n : p + n <= length m -> next m p n = Ok (p + n).
Proof. intros H. unfold next. destruct (Nat.leb_spec (p + n) (length m)); [reflexivity|lia]. Qed.

Lemma resize_ok m v n : m_begin v + n <= length m -> resize_ m v n = Ok (MkView (m_begin v) (m_begin v + n) (m_max v)).
Proof. intros H. unfold resize_. rewrite next_ok by assumption. reflexivity. Qed.

Lemma nth_content m v i : nth_error (content m v) i = if i <? size v then nth_error m (m_begin v + i) else None.
Proof. unfold content. rewrite nth_error_firstn, nth_error_skipn. reflexivity. Qed.

Lemma length_content m v : valid m v -> length (content m v) = size v.
Proof. unfold valid, content, size. intros H. rewrite firstn_length, skipn_length. lia. Qed.

(* the shift an insertion makes, when there is room for it twice *)
Lemma prepare_ok (trivial : bool) m v pos count : valid m v -> pos <= size v -> 0 < count ->
  m_end v + 2 * count <= length m -> trivial = true \/ pos = size v ->
  exists m', prepare_insert trivial m v pos count = Ok (m', MkView (m_begin v) (m_end v + count) (m_max v)) /\
    length m' = length m /\
    (forall q, q < m_begin v + pos \/ m_end v + 2 * count <= q -> nth_error m' q = nth_error m q) /\
    (forall q, m_begin v + pos <= q < m_end v -> nth_error m' (q + count) = nth_error m q) /\
    (trivial = true -> forall q, m_begin v + pos <= q < m_begin v + pos + count -> nth_error m' q = nth_error m q).
Proof.
  intros (W1 & W2 & W3) P C R T. unfold size in *. unfold prepare_insert. destruct (Nat.eqb_spec count 0) as [|NZ]; [lia|].
  unfold size. rewrite resize_ok by lia. cbn [bind]. rewrite next_ok by lia. cbn [bind m_end].
  replace (m_begin v + (m_end v - m_begin v + count)) with (m_end v + count) by lia.
  set (n := m_end v + count - (m_begin v + pos)).
  assert (N : n = m_end v + count - (m_begin v + pos)) by reflexivity. clearbody n.
  unfold std_move. destruct trivial.
  - destruct (memmove_ok m (m_begin v + pos) n (m_begin v + pos + count)) as [m' [M [L [A B]]]]; [lia|lia|].
    exists m'. rewrite M. cbn [bind]. split; [reflexivity|]. split; [assumption|]. split; [|split].
    + intros q Q. apply B. lia.
    + intros q Q. rewrite A by lia. f_equal. lia.
    + intros _ q Q. apply B. lia.
  - destruct T as [T| -> ]; [discriminate|].
    destruct (move_up_ok n m (m_begin v + (m_end v - m_begin v)) count C) as [m' [M [L [A [B E]]]]]; [lia|].
    exists m'. rewrite M. cbn [bind]. split; [reflexivity|]. split; [assumption|]. split; [|split].
    + intros q Q. destruct Q; [apply A; assumption|apply E; lia].
    + intros q Q. lia.
    + discriminate.
Qed.

Lemma erase_ok (trivial : bool) m v pos count : valid m v -> pos + count <= size v ->
  trivial = true \/ count = 0 \/ size v - (pos + count) <= count ->
  exists m', erase_n trivial m v pos count = Ok (m', MkView (m_begin v) (m_end v - count) (m_max v)) /\
    length m' = length m /\
    (forall q, q < m_begin v + pos \/ m_end v <= q -> nth_error m' q = nth_error m q) /\
    (forall q, m_begin v + pos <= q < m_end v - count -> nth_error m' q = nth_error m (q + count)).
Proof.
  intros (W1 & W2 & W3) P T. unfold size in *. unfold erase_n. destruct (Nat.eqb_spec count 0) as [->|N0].
  { exists m. split; [f_equal; f_equal; destruct v; cbn; f_equal; lia|]. split; [reflexivity|]. split; [reflexivity|]. 
    intros q Q. f_equal. lia. }
  set (n := m_end v - (m_begin v + pos + count)).
  assert (N : n = m_end v - (m_begin v + pos + count)) by reflexivity. clearbody n.
  unfold std_move_backward, size. destruct trivial.
  - destruct (memmove_ok m (m_begin v + pos + count) n (m_begin v + pos)) as [m' [M [L [A B]]]]; [lia|lia|].
    rewrite M. cbn [bind]. rewrite resize_ok by lia. cbn [bind]. exists m'. split; [apply (f_equal (fun e => Ok (m', MkView (m_begin v) e (m_max v)))); lia|]. split; [assumption|].
    split; [intros q Q; apply B; lia|]. intros q Q. rewrite A by lia. f_equal. lia.
  - destruct T as [T|[T|T]]; [discriminate|lia|].
    destruct (move_down_ok n m (m_begin v + pos) count) as [m' [M [L [A B]]]]; [lia|lia|].
    rewrite M. cbn [bind]. rewrite resize_ok by lia. cbn [bind]. exists m'. split; [apply (f_equal (fun e => Ok (m', MkView (m_begin v) e (m_max v)))); lia|]. split; [assumption|].
    split; [intros q Q; apply B; lia|]. intros q Q. apply A. lia.
Qed.

Lemma nth_at (l l' : memory) (n i : nat) : n <= length l ->
  nth_error (firstn n l ++ l') i = if i <? n then nth_error l i else nth_error l' (i - n).
Proof.
  intros H. rewrite nth_error_app, firstn_length, nth_error_firstn. rewrite Nat.min_l by assumption.
  destruct (i <? n); reflexivity.
Qed.

(* every operation, within its contract and spared, has its effect and touches
   nothing outside the places of the view *)
Lemma op_ok (trivial : bool) (o : op V) m v : valid m v ->
  contract (m_max v) (content m v) o -> spared trivial (m_max v) (content m v) o ->
  exists m' v', run_op trivial o m v = Ok (m', v') /\ valid m' v' /\ m_begin v' = m_begin v /\ m_max v' = m_max v /\
    outside_kept v m m' /\ effect o (content m v) (content m' v').
Proof.
  intros W C S. pose proof (length_content m v W) as LC.
  pose proof W as (W1 & W2 & W3). unfold outside_kept, valid.
  destruct o as [k c|k|k c|i c| |c| |pos a|pos x|pos|i j]; cbn [run_op contract spared effect] in *; unfold size in *.
  - (* assign *)
    unfold assign. rewrite resize_ok by lia. cbn [bind m_begin]. unfold size. cbn [m_begin m_end].
    replace (m_begin v + k - m_begin v) with k by lia.
    destruct (fill_ok k m (m_begin v) c) as [m' [M [L A]]]; [lia|]. rewrite M. cbn [bind].
    eexists. eexists. split; [reflexivity|]. cbn [m_begin m_end m_max]. repeat split; try lia.
    + intros p P. rewrite A. cases; cbn [andb]; try lia; reflexivity.
    + apply list_ext. intros q. rewrite nth_content, nth_error_repeat, A. unfold size. cbn [m_begin m_end].
      cases; cbn [andb]; try lia; reflexivity.
  - (* resize *)
    unfold resize. unfold size. destruct (Nat.eqb_spec k (m_end v - m_begin v)) as [->|NE].
    + exists m, v. repeat split; auto; try lia.
    + rewrite resize_ok by lia. cbn [bind]. eexists. eexists. split; [reflexivity|]. cbn [m_begin m_end m_max].
      repeat split; try lia.
      * rewrite length_content by (unfold valid; cbn [m_begin m_end m_max]; lia). unfold size. cbn [m_begin m_end]. lia.
      * intros q Q1 Q2. rewrite !nth_content. unfold size. cbn [m_begin m_end]. cases; try lia; reflexivity.
  - (* resize with a value *)
    unfold resize_with. unfold size. destruct (Nat.ltb_spec k (m_end v - m_begin v)).
    + rewrite resize_ok by lia. cbn [bind]. eexists. eexists. split; [reflexivity|]. cbn [m_begin m_end m_max].
      repeat split; try lia.
      apply list_ext. intros q. rewrite nth_content, nth_at, nth_content, nth_error_repeat by lia.
      unfold size. cbn [m_begin m_end]. cases; try lia; reflexivity.
    + destruct (Nat.ltb_spec (m_end v - m_begin v) k).
      * rewrite resize_ok by lia. cbn [bind m_end].
        destruct (fill_ok (m_begin v + k - m_end v) m (m_end v) c) as [m' [M [L A]]]; [lia|]. rewrite M. cbn [bind].
        eexists. eexists. split; [reflexivity|]. cbn [m_begin m_end m_max]. repeat split; try lia.
        -- intros p P. rewrite A. cases; cbn [andb]; try lia; reflexivity.
        -- apply list_ext. intros q. rewrite nth_content, nth_error_app, firstn_length, nth_error_firstn, nth_content, nth_error_repeat, A.
           unfold size. cbn [m_begin m_end]. cases; cbn [andb]; try lia; reflexivity.
      * exists m, v. repeat split; auto; try lia.
        apply list_ext. intros q. rewrite nth_error_app, firstn_length, nth_error_firstn, !nth_content, nth_error_repeat. unfold size.
        cases; try lia; reflexivity.
  - (* writing an element *)
    unfold set_index. rewrite write_ok by lia. cbn [bind]. eexists. eexists. split; [reflexivity|]. rewrite length_put.
    repeat split; auto; try lia.
    + intros p P. rewrite nth_put by lia. cases; try lia; reflexivity.
    + apply list_ext. intros q. rewrite nth_content, nth_put, nth_at, nth_error_cons by lia. unfold size.
      cases; try lia.
      * rewrite nth_content. unfold size. cases; try lia. reflexivity.
      * replace (q - i) with 0 by lia. reflexivity.
      * destruct (q - i) eqn:E; [lia|]. rewrite nth_error_skipn, nth_content. unfold size. cases; try lia. f_equal. lia.
      * destruct (q - i) eqn:E; [lia|]. rewrite nth_error_skipn, nth_content. unfold size. cases; try lia. reflexivity.
  - (* clear *)
    unfold clear. eexists. eexists. split; [reflexivity|]. cbn [m_begin m_end m_max]. repeat split; try lia.
    unfold content, size. cbn [m_begin m_end]. rewrite Nat.sub_diag. reflexivity.
  - (* push_back *)
    unfold push_back. rewrite write_ok by lia. cbn [bind]. eexists. eexists. split; [reflexivity|]. rewrite length_put.
    cbn [m_begin m_end m_max]. repeat split; try lia.
    + intros p P. rewrite nth_put by lia. cases; try lia; reflexivity.
    + apply list_ext. intros q. rewrite nth_content, nth_put, nth_error_app, LC, nth_content by lia. unfold size. cbn [m_begin m_end].
      cases; try lia; try reflexivity.
      * replace (q - (m_end v - m_begin v)) with 0 by lia. reflexivity.
      * rewrite nth_error_none by (cbn [length]; lia). reflexivity.
  - (* pop_back *)
    assert (0 < length (content m v)) by (destruct (content m v); [congruence|cbn; lia]).
    unfold pop_back. destruct (m_end v) as [|e] eqn:E; [lia|]. eexists. eexists. split; [reflexivity|].
    cbn [m_begin m_end m_max]. repeat split; try lia.
    destruct (read_ok m e) as [c [_ R]]; [lia|]. exists c.
    apply list_ext. intros q. rewrite nth_error_app, length_content by (unfold valid; cbn [m_begin m_end m_max]; lia).
    rewrite !nth_content. unfold size. cbn [m_begin m_end]. rewrite E. cases; try lia; try reflexivity.
    + rewrite nth_error_cons. replace (q - (e - m_begin v)) with 0 by lia. replace (m_begin v + q) with e by lia. exact R.
    + rewrite nth_error_none by (cbn [length]; lia). reflexivity.
  - (* insert *)
    destruct S as (S1 & S2 & S3). destruct C as (C1 & C2 & C3). unfold insert.
    destruct (prepare_ok trivial m v pos 1) as [m1 [M1 [L1 [A [B D]]]]]; try assumption; unfold size; try lia.
    { destruct S1; [left; assumption|right; lia]. }
    rewrite M1. cbn [bind].
    assert (F : exists c, fetch m1 (MkView (m_begin v) (m_end v + 1) (m_max v)) a = Ok c /\ denotes (content m v) a c).
    { destruct a as [c|k]; cbn [fetch denotes].
      - exists c. auto.
      - unfold index. cbn [m_begin]. assert (E : nth_error m1 (m_begin v + k) = nth_error m (m_begin v + k)).
        { destruct (Nat.eq_dec k pos) as [->|]; [|apply A; lia].
          destruct S1 as [->|]; [|lia]. apply D; [reflexivity|lia]. }
        destruct (read_ok m (m_begin v + k)) as [c [_ R]]; [lia|]. exists c. unfold read. rewrite E, R. split; [reflexivity|].
        rewrite nth_content. unfold size. cases; try lia. exact R. }
    destruct F as [c [F G]]. rewrite F. cbn [bind]. rewrite write_ok by lia. cbn [bind].
    eexists. eexists. split; [reflexivity|]. rewrite length_put. cbn [m_begin m_end m_max]. repeat split; try lia.
    + intros p P. rewrite nth_put by lia. rewrite A by lia. cases; try lia; reflexivity.
    + exists c. split; [assumption|]. apply list_ext. intros q.
      rewrite nth_content, nth_put, nth_at, nth_error_cons by lia. unfold size. cbn [m_begin m_end]. cases; try lia.
      * rewrite A by lia. rewrite nth_content. unfold size. cases; try lia. reflexivity.
      * replace (q - pos) with 0 by lia. reflexivity.
      * destruct (q - pos) as [|r] eqn:E; [lia|]. rewrite nth_error_skipn, nth_content. unfold size. cases; try lia.
        replace (m_begin v + q) with (m_begin v + (pos + r) + 1) by lia. apply B. lia.
      * destruct (q - pos) as [|r] eqn:E; [lia|]. rewrite nth_error_skipn, nth_content. unfold size. cases; try lia. reflexivity.
  - (* insert a range *)
    destruct C as (C1 & C2). unfold insert_range. destruct S as [->|[S1 S2]].
    { cbn [length]. unfold prepare_insert. cbn [Nat.eqb bind copy_in]. exists m, v. repeat split; auto; try lia.
      cbn [app]. rewrite firstn_skipn. reflexivity. }
    destruct (Nat.eq_dec (length x) 0) as [Z|NZ].
    { destruct x; [|discriminate]. cbn [length]. unfold prepare_insert. cbn [Nat.eqb bind copy_in]. exists m, v.
      repeat split; auto; try lia. cbn [app]. rewrite firstn_skipn. reflexivity. }
    destruct (prepare_ok trivial m v pos (length x)) as [m1 [M1 [L1 [A [B D]]]]]; try assumption; unfold size; try lia.
    { destruct S1; [left; assumption|right; lia]. }
    rewrite M1. cbn [bind].
    destruct (copy_in_ok x m1 (m_begin v + pos)) as [m2 [M2 [L2 E]]]; [lia|]. rewrite M2. cbn [bind].
    eexists. eexists. split; [reflexivity|]. cbn [m_begin m_end m_max]. repeat split; try lia.
    + intros p P. rewrite E. rewrite A by lia. cases; cbn [andb]; try lia; reflexivity.
    + apply list_ext. intros q.
      rewrite nth_content, nth_at, nth_error_app, nth_error_skipn, !nth_content, E by lia. unfold size. cbn [m_begin m_end].
      cases; cbn [andb]; try lia; try reflexivity.
      * apply A. lia.
      * f_equal. lia.
      * replace (m_begin v + q) with (m_begin v + (q - length x) + length x) by lia. rewrite B by lia. f_equal. lia.
  - (* erase *)
    unfold erase. destruct (erase_ok trivial m v pos 1) as [m' [M [L [A B]]]]; [assumption|unfold size; lia| |].
    { destruct S as [->|S]; [left; reflexivity|right; right; unfold size; lia]. }
    rewrite M. eexists. eexists. split; [reflexivity|]. cbn [m_begin m_end m_max]. repeat split; try lia.
    + intros p P. apply A. lia.
    + apply list_ext. intros q. rewrite nth_content, nth_at, nth_error_skipn, !nth_content by lia. unfold size. cbn [m_begin m_end].
      cases; try lia; try reflexivity.
      * apply A. lia.
      * rewrite B by lia. f_equal. lia.
  - (* erase a range *)
    destruct C as (C1 & C2).
    unfold erase_range. destruct (erase_ok trivial m v i (j - i)) as [m' [M [L [A B]]]]; [assumption|unfold size; lia| |].
    { destruct S as [->|[S|S]]; [left; reflexivity|right; left; lia|right; right; unfold size; lia]. }
    rewrite M. eexists. eexists. split; [reflexivity|]. cbn [m_begin m_end m_max]. repeat split; try lia.
    + intros p P. apply A. lia.
    + apply list_ext. intros q. rewrite nth_content, nth_at, nth_error_skipn, !nth_content by lia. unfold size. cbn [m_begin m_end].
      cases; try lia; try reflexivity.
      * apply A. lia.
      * rewrite B by lia. f_equal. lia.
Qed.

Lemma history (trivial : bool) (os : list (op V)) : forall m v, valid m v ->
  careful trivial (m_max v) os (content m v) ->
  exists m' v', run_ops trivial os m v = Ok (m', v') /\ valid m' v' /\ m_begin v' = m_begin v /\ m_max v' = m_max v /\
    outside_kept v m m' /\ follows trivial (m_max v) os (content m v) (content m' v').
Proof.
  induction os as [|o os IH]; intros m v W C; cbn [careful] in C.
  - exists m, v. cbn [run_ops]. repeat split; auto; try apply W. apply follows_nil.
  - destruct C as (C1 & C2 & C3). destruct (op_ok trivial o m v W C1 C2) as (m1 & v1 & R & W1 & B1 & M1 & (K1 & K2) & E).
    cbn [run_ops]. rewrite R. cbn [bind]. destruct (IH m1 v1 W1) as (m2 & v2 & R2 & W2 & B2 & M2 & (K3 & K4) & F).
    { rewrite M1. apply C3. assumption. }
    exists m2, v2. split; [assumption|]. split; [assumption|]. split; [congruence|]. split; [congruence|]. split.
    + split; [congruence|]. intros p P. rewrite K4 by (rewrite B1, M1; exact P). apply K2. exact P.
    + rewrite M1 in F. eapply follows_cons; eassumption.
Qed.

Lemma observe m v : valid m v ->
  size v = length (content m v) /\ (empty v = true <-> content m v = []) /\
  (forall i, at_ m v i = match nth_error (content m v) i with Some c => Ok c | None => OutOfRange end) /\
  (forall i c, nth_error (content m v) i = Some c -> index m v i = Ok c) /\
  (forall c l, content m v = c :: l -> front m v = Ok c) /\
  (forall c l, content m v = l ++ [c] -> back m v = Ok c).
Proof.
  intros W. pose proof (length_content m v W) as LC. pose proof W as (W1 & W2 & W3). repeat split.
  - symmetry. exact LC.
  - unfold empty. intros E. apply Nat.eqb_eq in E. unfold content, size. rewrite E, Nat.sub_diag. reflexivity.
  - intros E. unfold empty. apply Nat.eqb_eq. rewrite E in LC. unfold size in LC. cbn in LC. lia.
  - intros i. rewrite nth_content. unfold at_. cases; try lia; [|reflexivity].
    unfold index. destruct (read_ok m (m_begin v + i)) as [c [R N]]; [unfold size in *; lia|]. rewrite R, N. reflexivity.
  - intros i c H. rewrite nth_content in H. destruct (i <? size v); [|discriminate]. unfold index, read. rewrite H. reflexivity.
  - intros c l H. assert (N : nth_error (content m v) 0 = Some c) by (rewrite H; reflexivity).
    rewrite nth_content in N. destruct (0 <? size v); [|discriminate]. rewrite Nat.add_0_r in N. unfold front, read. rewrite N. reflexivity.
  - intros c l H. assert (N : nth_error (content m v) (length l) = Some c).
    { rewrite H, nth_error_app2, Nat.sub_diag by lia. reflexivity. }
    assert (LL : size v = S (length l)) by (rewrite <- LC, H, app_length; cbn; lia).
    rewrite nth_content in N. destruct (Nat.ltb_spec (length l) (size v)); [|discriminate]. unfold back. unfold size in LL.
    destruct (m_end v) as [|e] eqn:E; [lia|]. unfold read. replace e with (m_begin v + length l) by lia. rewrite N. reflexivity.
Qed.

(* an insertion that would fit, but has not twice the room, leaves the array *)
Lemma prepare_ub (trivial : bool) m v pos count : valid m v -> pos <= size v -> 0 < count -> size v + count <= m_max v ->
  length m < m_end v + 2 * count -> prepare_insert trivial m v pos count = UB.
Proof.
  intros (W1 & W2 & W3) P C R T. unfold size in *. unfold prepare_insert. destruct (Nat.eqb_spec count 0) as [|NZ]; [lia|].
  unfold size. rewrite resize_ok by lia. cbn [bind]. rewrite next_ok by lia. cbn [bind m_end]. unfold std_move. destruct trivial.
  - rewrite memmove_ub by lia. reflexivity.
  - rewrite move_up_ub by lia. reflexivity.
Qed.

(* elements that are not trivially copyable: everything behind the position is lost *)
Lemma insert_lost m v pos c : valid m v -> pos <= size v -> size v + 1 <= m_max v -> m_end v + 2 <= length m ->
  exists m' v', insert false m v pos (Outside c) = Ok (m', v') /\
    content m' v' = firstn pos (content m v) ++ c :: repeat Hollow (size v - pos).
Proof.
  intros W P R T. pose proof (length_content m v W) as LC. pose proof W as (W1 & W2 & W3). unfold size in *. unfold insert, prepare_insert. cbn [Nat.eqb].
  unfold size. rewrite resize_ok by lia. cbn [bind]. rewrite next_ok by lia. cbn [bind m_end std_move].
  destruct (move_up_ok (m_begin v + (m_end v - m_begin v + 1) - (m_begin v + pos)) m (m_begin v + pos) 1) as [m1 [M1 [L1 [A [B E]]]]]; [lia|lia|].
  unfold std_move. rewrite M1. cbn [bind fetch]. rewrite write_ok by lia. cbn [bind]. eexists. eexists. split; [reflexivity|].
  apply list_ext. intros q. rewrite nth_content, nth_put, nth_at, nth_error_cons by lia. unfold size. cbn [m_begin m_end].
  cases; try lia.
  - rewrite A by lia. rewrite nth_content. unfold size. cases; try lia. reflexivity.
  - replace (q - pos) with 0 by lia. reflexivity.
  - destruct (q - pos) as [|r] eqn:Q; [lia|]. rewrite nth_error_repeat. cases; try lia. apply B. lia.
  - destruct (q - pos) as [|r] eqn:Q; [lia|]. rewrite nth_error_repeat. cases; try lia. reflexivity.
Qed.

Lemma erase_lost m v pos l c : valid m v -> content m v = l ++ [c] -> pos + 1 <= length l ->
  exists m' v', erase false m v pos = Ok (m', v') /\
    content m' v' = firstn pos l ++ c :: repeat Hollow (length l - pos - 1).
Proof.
  intros W H P. pose proof (length_content m v W) as LC. pose proof W as (W1 & W2 & W3).
  assert (LL : size v = S (length l)) by (rewrite <- LC, H, app_length; cbn; lia). unfold size in *.
  unfold erase, erase_n. cbn [Nat.eqb]. unfold std_move_backward.
  replace (m_end v - (m_begin v + pos + 1)) with (S (length l - pos - 1)) by lia.
  destruct (move_down_one (length l - pos - 1) m (m_begin v + pos)) as [m1 [M1 [L1 [A [B E]]]]]; [lia|].
  rewrite M1. cbn [bind]. rewrite resize_ok by (unfold size; lia). cbn [bind]. eexists. eexists. split; [reflexivity|].
  assert (N : forall i, i < S (length l) -> nth_error m (m_begin v + i) = nth_error (l ++ [c]) i).
  { intros i I. rewrite <- H, nth_content. unfold size. cases; try lia. reflexivity. }
  apply list_ext. intros q. rewrite nth_content, nth_at, nth_error_cons by lia. unfold size. cbn [m_begin m_end]. cases; try lia.
  - rewrite E by lia. rewrite N by lia. apply nth_error_app1. lia.
  - destruct (q - pos) as [|r] eqn:Q.
    + replace q with pos by lia. rewrite A. replace (m_begin v + pos + S (length l - pos - 1)) with (m_begin v + length l) by lia.
      rewrite N by lia. rewrite nth_error_app2, Nat.sub_diag by lia. reflexivity.
    + rewrite nth_error_repeat. cases; try lia. apply B. lia.
  - destruct (q - pos) as [|r] eqn:Q; [lia|]. rewrite nth_error_repeat. cases; try lia. reflexivity.
Qed.
End Proofs.
