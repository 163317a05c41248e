(* Every iterator reached in a pipeline stands at an index of the list the
   pipeline means. *)
From Coq Require Import ZArith List Bool Lia.
From Verif Require Import RangeModel RangeSpec.
Import ListNotations.
Local Open Scope Z_scope.

(* [R k s]: the iterator value s stands at index k of xs *)
Record weak {A} (F : nat) (i : iterator A) (xs : list A) (R : nat -> state i -> Prop) : Prop := {
  w_le : forall k s, R k s -> (k <= length xs)%nat;
  w_copy : forall k s, R k s -> exists t, copy i s = Ok t /\ R k t;
  w_inc : forall k s f, R k s -> (k < length xs)%nat -> (F <= f)%nat ->
    exists t, inc i f s = Ok t /\ R (S k) t;
  w_dec : forall k s f, cat i <> Forward -> R (S k) s -> (F <= f)%nat ->
    exists t, dec i f s = Ok t /\ R k t;
  w_deref : forall k s a f, R k s -> nth_error xs k = Some a -> (F <= f)%nat -> deref i f s = Ok a;
  w_ne : forall k s t, R k s -> R k t -> ne i s t = false;
  w_lt : forall j k s t, cat i = RandomAccess -> R j s -> R k t -> (j < k)%nat -> lt i s t = true;
  w_add : forall k s, cat i = RandomAccess -> R k s -> (k < length xs)%nat ->
    exists t, add i 1 s = Ok t /\ R (S k) t;
  w_addm : forall k s, cat i = RandomAccess -> R (S k) s ->
    exists t, add i (-1) s = Ok t /\ R k t
}.

Record tracks {A} (F : nat) (i : iterator A) (xs : list A) (R : nat -> state i -> Prop) : Prop := {
  t_weak : weak F i xs R;
  t_ne : forall j k s t, R j s -> R k t -> j <> k -> ne i s t = true;
  t_lt : forall j k s t, cat i = RandomAccess -> R j s -> R k t -> (k <= j)%nat -> lt i s t = false;
  t_sub : forall k s, cat i = RandomAccess -> R (S k) s ->
    exists t, sub i 1 s = Ok t /\ R k t;
  t_subm : forall k s, cat i = RandomAccess -> R k s -> (k < length xs)%nat ->
    exists t, sub i (-1) s = Ok t /\ R (S k) t;
  t_diff : forall j k s t, cat i = RandomAccess -> R j s -> R k t -> (k <= j)%nat ->
    diff i s t = Ok (Z.of_nat j - Z.of_nat k)
}.

Lemma weak_more : forall A F G (i : iterator A) xs R, (F <= G)%nat -> weak F i xs R -> weak G i xs R.
Proof.
  intros A F G i xs R L [H1 H2 H3 H4 H5 H6 H7 H8 H9].
  constructor; try assumption; intros.
  - apply (H3 k s f); try assumption; lia.
  - apply (H4 k s f); try assumption; lia.
  - apply (H5 k s a f); try assumption; lia.
Qed.

Lemma tracks_more : forall A F G (i : iterator A) xs R, (F <= G)%nat -> tracks F i xs R -> tracks G i xs R.
Proof.
  intros A F G i xs R L [H1 H2 H3 H4 H5 H6].
  constructor; try assumption. exact (weak_more _ _ _ _ _ _ L H1).
Qed.

(* ---- containers ---- *)

Lemma nth_error_firstn : forall A (l : list A) m k,
  (k < m)%nat -> nth_error (firstn m l) k = nth_error l k.
Proof.
  induction l as [|a l IH]; intros m k H.
  - rewrite firstn_nil. reflexivity.
  - destruct m as [|m]; [lia|]. cbn [firstn]. destruct k as [|k]; [reflexivity|].
    cbn [nth_error]. apply IH. lia.
Qed.

Lemma nth_error_skipn : forall A (l : list A) m k,
  nth_error (skipn m l) k = nth_error l (m + k).
Proof.
  induction l as [|a l IH]; intros m k.
  - rewrite skipn_nil. destruct k, m; reflexivity.
  - destruct m as [|m]; [reflexivity|]. cbn [skipn plus nth_error]. apply IH.
Qed.

Lemma move_to_ok : forall A (l : list A) i, 0 <= i <= Z.of_nat (length l) -> move_to l i = Ok i.
Proof.
  intros A l i H. unfold move_to.
  rewrite (proj2 (Z.leb_le 0 i)), (proj2 (Z.leb_le i (Z.of_nat (length l)))) by lia. reflexivity.
Qed.

Lemma container_tracks : forall A c (l : list A) i j F,
  0 <= i -> i <= j -> j <= Z.of_nat (length l) ->
  tracks F (container_iter c l) (firstn (Z.to_nat (j - i)) (skipn (Z.to_nat i) l))
    (fun k s => s = i + Z.of_nat k /\ (k <= Z.to_nat (j - i))%nat).
Proof.
  intros A c l i j F H0 H1 H2.
  assert (L : length (firstn (Z.to_nat (j - i)) (skipn (Z.to_nat i) l)) = Z.to_nat (j - i)).
  { rewrite firstn_length, skipn_length. lia. }
  constructor; [constructor|..]; rewrite ?L.
  - intros k s [_ H]. exact H.
  - intros k s H. exists s. split; [reflexivity|exact H].
  - intros k s f [E H] K _. cbn [container_iter inc]. exists (s + 1).
    split; [apply move_to_ok; lia|split; lia].
  - intros k s f N [E H] _. cbn [container_iter dec cat] in *. exists (s - 1).
    split; [|split; lia]. destruct c; [congruence|apply move_to_ok; lia..].
  - intros k s a f [E H] N _. cbn [container_iter deref].
    rewrite (proj2 (Z.leb_le 0 s)) by lia.
    assert (K : (k < Z.to_nat (j - i))%nat).
    { rewrite <- L. apply nth_error_Some. rewrite N. discriminate. }
    rewrite nth_error_firstn, nth_error_skipn in N by exact K.
    replace (Z.to_nat s) with (Z.to_nat i + k)%nat by lia. rewrite N. reflexivity.
  - intros k s t [E _] [E' _]. cbn [container_iter ne]. subst. rewrite Z.eqb_refl. reflexivity.
  - intros a b s t _ [E _] [E' _] K. cbn [container_iter lt]. apply Z.ltb_lt. lia.
  - intros k s _ [E H] K. cbn [container_iter add]. exists (s + 1).
    split; [apply move_to_ok; lia|split; lia].
  - intros k s _ [E H]. cbn [container_iter add]. exists (s + -1).
    split; [apply move_to_ok; lia|split; lia].
  - intros a b s t [E _] [E' _] K. cbn [container_iter ne]. rewrite (proj2 (Z.eqb_neq s t)) by lia. reflexivity.
  - intros a b s t _ [E _] [E' _] K. cbn [container_iter lt]. apply Z.ltb_ge. lia.
  - intros k s _ [E H]. cbn [container_iter sub]. exists (s - 1).
    split; [apply move_to_ok; lia|split; lia].
  - intros k s _ [E H] K. cbn [container_iter sub]. exists (s - -1).
    split; [apply move_to_ok; lia|split; lia].
  - intros a b s t _ [E _] [E' _] K. cbn [container_iter diff]. f_equal. lia.
Qed.

(* ---- numbers ---- *)

Lemma int_result_ok : forall t v, ilo t <= v -> v <= ihi t -> int_result t v = Ok v.
Proof.
  intros t v H1 H2. unfold int_result.
  rewrite (proj2 (Z.leb_le _ _) H1), (proj2 (Z.leb_le _ _) H2). reflexivity.
Qed.

Lemma int_difference_ok : forall t v u,
  1 <= bits t <= 64 -> ilo t <= u -> u <= v -> v <= ihi t -> countable t (v - u) ->
  int_difference t v u = Ok (v - u).
Proof.
  intros t v u B L1 L2 L3 C. unfold int_difference.
  destruct (bits t <? 32) eqn:E; [reflexivity|]. apply Z.ltb_ge in E.
  assert (P : 0 < 2 ^ (bits t - 1)) by (apply Z.pow_pos_nonneg; lia).
  unfold ilo, ihi in *. destruct C as [C|[[S C]|[S C]]]; [lia|..]; rewrite S in *.
  - rewrite (proj2 (Z.leb_le (- 2 ^ (bits t - 1)) (v - u))) by lia.
    rewrite (proj2 (Z.leb_le (v - u) (2 ^ (bits t - 1) - 1))) by lia. reflexivity.
  - assert (X : (v - u) mod 2 ^ bits t = v - u) by (apply Z.mod_small; lia).
    rewrite X. unfold to_ptrdiff. rewrite Z.mod_small by lia. f_equal. lia.
Qed.

Lemma countable_less : forall t d e, e <= d -> countable t d -> countable t e.
Proof. intros t d e L [H|[[H G]|[H G]]]; unfold countable; intuition lia. Qed.

Lemma nth_error_numbers : forall a m k,
  (k < m)%nat -> nth_error (map (fun k => a + Z.of_nat k) (seq 0 m)) k = Some (a + Z.of_nat k).
Proof.
  intros a m k H.
  rewrite (map_nth_error (fun k => a + Z.of_nat k) k (seq 0 m) (d := k)); [reflexivity|].
  rewrite (nth_error_nth' _ 0%nat) by (rewrite seq_length; exact H).
  rewrite seq_nth by exact H. reflexivity.
Qed.

Lemma numeric_tracks : forall t a b F,
  1 <= bits t <= 64 -> ilo t <= a -> a <= b -> b <= ihi t -> countable t (b - a) ->
  tracks F (numeric_iter t) (map (fun k => a + Z.of_nat k) (seq 0 (Z.to_nat (b - a))))
    (fun k s => s = a + Z.of_nat k /\ (k <= Z.to_nat (b - a))%nat).
Proof.
  intros t a b F B H1 H2 H3 C.
  constructor; [constructor|..]; rewrite ?map_length, ?seq_length.
  - intros k s [_ H]. exact H.
  - intros k s H. exists s. split; [reflexivity|exact H].
  - intros k s f [E H] K _. cbn [numeric_iter inc]. exists (s + 1).
    split; [apply int_result_ok; lia|split; lia].
  - intros k s f N [E H] _. cbn [numeric_iter dec]. exists (s - 1).
    split; [apply int_result_ok; lia|split; lia].
  - intros k s v f [E H] N _. cbn [numeric_iter deref].
    assert (K : (k < Z.to_nat (b - a))%nat).
    { replace (Z.to_nat (b - a)) with (length (map (fun k => a + Z.of_nat k) (seq 0 (Z.to_nat (b - a)))))
        by (rewrite map_length, seq_length; reflexivity).
      apply nth_error_Some. rewrite N. discriminate. }
    rewrite nth_error_numbers in N by exact K. congruence.
  - intros k s u [E _] [E' _]. cbn [numeric_iter ne]. subst. rewrite Z.eqb_refl. reflexivity.
  - intros j k s u _ [E _] [E' _] K. cbn [numeric_iter lt]. apply Z.ltb_lt. lia.
  - intros k s _ [E H] K. cbn [numeric_iter add]. exists (s + 1).
    split; [apply int_result_ok; lia|split; lia].
  - intros k s _ [E H]. cbn [numeric_iter add]. exists (s + -1).
    split; [apply int_result_ok; lia|split; lia].
  - intros j k s u [E _] [E' _] K. cbn [numeric_iter ne]. rewrite (proj2 (Z.eqb_neq s u)) by lia. reflexivity.
  - intros j k s u _ [E _] [E' _] K. cbn [numeric_iter lt]. apply Z.ltb_ge. lia.
  - intros k s _ [E H]. cbn [numeric_iter sub]. exists (s - 1).
    split; [apply int_result_ok; lia|split; lia].
  - intros k s _ [E H] K. cbn [numeric_iter sub]. exists (s - -1).
    split; [apply int_result_ok; lia|split; lia].
  - intros j k s u _ [E G] [E' G'] K. cbn [numeric_iter diff].
    rewrite int_difference_ok; [f_equal; lia|lia..|].
    apply (countable_less t (b - a)); [lia|exact C].
Qed.

(* ---- map ---- *)

Lemma transform_tracks : forall A B (g : A -> B) F i xs R,
  tracks F i xs R -> tracks F (transform_iter g i) (map g xs) R.
Proof.
  intros A B g F i xs R [[H1 H2 H3 H4 H5 H6 H7 H8 H9] G1 G2 G3 G4 G5].
  constructor; [constructor|..]; rewrite ?map_length; cbn [transform_iter copy inc dec deref ne lt add sub diff cat];
    try assumption.
  - intros k s b f K N L. destruct (nth_error xs k) as [a|] eqn:E.
    + rewrite (H5 k s a f K E L). cbn [bind]. f_equal.
      rewrite (map_nth_error g k xs E) in N. congruence.
    + exfalso. apply nth_error_None in E.
      assert (Q : (k < length (map g xs))%nat) by (apply nth_error_Some; rewrite N; discriminate).
      rewrite map_length in Q. lia.
Qed.

(* ---- filter ---- *)

Section FilterProofs.
Context {A : Type} (p : A -> bool).

Definition hits (xs : list A) (idx : nat) : nat := length (filter p (firstn idx xs)).

(* index idx of xs is where the filtered sequence has its k-th element, or the end *)
Definition lands (xs : list A) (k idx : nat) : Prop :=
  (idx <= length xs)%nat /\ hits xs idx = k /\
  (idx = length xs \/ exists a, nth_error xs idx = Some a /\ p a = true).

Lemma firstn_S : forall (xs : list A) idx a,
  nth_error xs idx = Some a -> firstn (S idx) xs = firstn idx xs ++ [a].
Proof.
  induction xs as [|x xs IH]; intros idx a H.
  - destruct idx; discriminate.
  - destruct idx as [|idx]; cbn [nth_error] in H.
    + injection H as H. subst. destruct xs; reflexivity.
    + cbn [firstn app]. f_equal. apply IH. exact H.
Qed.

Lemma hits_S : forall xs idx a,
  nth_error xs idx = Some a -> hits xs (S idx) = (hits xs idx + (if p a then 1 else 0))%nat.
Proof.
  intros xs idx a H. unfold hits. rewrite (firstn_S _ _ _ H), filter_app, app_length.
  cbn [filter]. destruct (p a); reflexivity.
Qed.

Lemma hits_mono : forall xs d idx, (hits xs idx <= hits xs (idx + d))%nat.
Proof.
  intros xs d. induction d as [|d IH]; intro idx; [replace (idx + 0)%nat with idx by lia; lia|].
  replace (idx + S d)%nat with (S (idx + d)) by lia.
  destruct (nth_error xs (idx + d)) as [a|] eqn:E.
  - rewrite (hits_S _ _ _ E). specialize (IH idx). lia.
  - apply nth_error_None in E. specialize (IH idx). unfold hits in *.
    rewrite (firstn_all2 (n := S (idx + d)) xs) by lia.
    rewrite (firstn_all2 (n := (idx + d)%nat) xs) in IH by lia. exact IH.
Qed.

Lemma hits_end : forall xs, hits xs (length xs) = length (filter p xs).
Proof. intro xs. unfold hits. rewrite firstn_all. reflexivity. Qed.

Lemma hits_0 : forall xs, hits xs 0 = 0%nat.
Proof. reflexivity. Qed.

Lemma hits_le : forall xs idx, (idx <= length xs)%nat -> (hits xs idx <= length (filter p xs))%nat.
Proof.
  intros xs idx H. rewrite <- hits_end. replace (length xs) with (idx + (length xs - idx))%nat by lia.
  apply hits_mono.
Qed.

Lemma lands_lt : forall xs j k a b, lands xs j a -> lands xs k b -> (a < b)%nat -> (j < k)%nat.
Proof.
  intros xs j k a b (L1 & E1 & M1) (L2 & E2 & _) H.
  destruct M1 as [M1|(x & N & P)]; [lia|].
  pose proof (hits_S xs a x N) as Q. rewrite P in Q.
  pose proof (hits_mono xs (b - S a) (S a)) as Z. replace (S a + (b - S a))%nat with b in Z by lia. lia.
Qed.

Lemma lands_unique : forall xs k a b, lands xs k a -> lands xs k b -> a = b.
Proof.
  intros xs k a b H G. destruct (lt_eq_lt_dec a b) as [[L|E]|L]; [|exact E|];
    [pose proof (lands_lt _ _ _ _ _ H G L) | pose proof (lands_lt _ _ _ _ _ G H L)]; lia.
Qed.

Lemma nth_error_filter_hits : forall xs idx a,
  nth_error xs idx = Some a -> p a = true -> nth_error (filter p xs) (hits xs idx) = Some a.
Proof.
  induction xs as [|x xs IH]; intros idx a H P.
  - destruct idx; discriminate.
  - destruct idx as [|idx]; cbn [nth_error] in H.
    + injection H as H. subst. unfold hits. cbn [firstn filter length]. rewrite P. reflexivity.
    + unfold hits. cbn [firstn filter]. destruct (p x); cbn [length nth_error]; apply (IH idx a H P).
Qed.

Lemma lands_nth : forall xs k idx a,
  lands xs k idx -> nth_error (filter p xs) k = Some a -> nth_error xs idx = Some a /\ p a = true.
Proof.
  intros xs k idx a (L & E & M) N. destruct M as [M|(b & Nb & Pb)].
  - exfalso. subst idx. rewrite hits_end in E.
    assert (Q : (k < length (filter p xs))%nat) by (apply nth_error_Some; rewrite N; discriminate). lia.
  - pose proof (nth_error_filter_hits xs idx b Nb Pb) as Q. rewrite E, N in Q.
    injection Q as Q. subst. split; assumption.
Qed.

Variables (F : nat) (i : iterator A) (xs : list A) (R : nat -> state i -> Prop).
Hypothesis T : tracks F i xs R.

Lemma skip_forward_lands : forall m k n idx s e,
  (length xs - idx <= m)%nat -> (m < k)%nat -> (F <= n)%nat ->
  R idx s -> R (length xs) e ->
  exists s' idx', skip_forward p i k n e s = Ok s' /\ R idx' s' /\
    (idx <= idx')%nat /\ lands xs (hits xs idx) idx'.
Proof using T.
  induction m as [|m IH]; intros k n idx s e D K N Rs Re; destruct k as [|k]; try lia;
    cbn [skip_forward]; destruct (Nat.eq_dec idx (length xs)) as [E|E];
    pose proof (w_le _ _ _ _ (t_weak _ _ _ _ T) _ _ Rs) as Le; try lia.
  - rewrite (w_ne _ _ _ _ (t_weak _ _ _ _ T) (length xs) s e) by (subst; assumption).
    exists s, idx. split; [reflexivity|]. split; [exact Rs|]. split; [lia|].
    split; [lia|]. split; [reflexivity|]. left. exact E.
  - rewrite (w_ne _ _ _ _ (t_weak _ _ _ _ T) (length xs) s e) by (subst; assumption).
    exists s, idx. split; [reflexivity|]. split; [exact Rs|]. split; [lia|].
    split; [lia|]. split; [reflexivity|]. left. exact E.
  - rewrite (t_ne _ _ _ _ T idx (length xs) s e Rs Re E).
    destruct (nth_error xs idx) as [a|] eqn:Na; [|apply nth_error_None in Na; lia].
    rewrite (w_deref _ _ _ _ (t_weak _ _ _ _ T) idx s a n Rs Na N). cbn [bind].
    destruct (p a) eqn:P.
    + exists s, idx. repeat split; try assumption; try lia. right. exists a. split; assumption.
    + destruct (w_inc _ _ _ _ (t_weak _ _ _ _ T) idx s n Rs ltac:(lia) N) as (s1 & E1 & R1).
      rewrite E1. cbn [bind].
      destruct (IH k n (S idx) s1 e ltac:(lia) ltac:(lia) N R1 Re) as (s' & idx' & Es & Rs' & L & Q).
      exists s', idx'. rewrite (hits_S _ _ _ Na), P in Q. replace (hits xs idx + 0)%nat with (hits xs idx) in Q by lia.
      repeat split; try assumption; try lia; apply Q.
Qed.

Lemma skip_backward_lands : forall idx k n s,
  cat i <> Forward -> (idx < k)%nat -> (F <= n)%nat -> (idx < length xs)%nat ->
  R idx s -> (0 < hits xs (S idx))%nat ->
  exists s' idx', skip_backward p i k n s = Ok s' /\ R idx' s' /\
    (idx' <= idx)%nat /\ lands xs (hits xs (S idx) - 1) idx'.
Proof using T.
  induction idx as [|idx IH]; intros k n s C K N L Rs H; destruct k as [|k]; try lia;
    cbn [skip_backward].
  - destruct (nth_error xs 0) as [a|] eqn:Na; [|apply nth_error_None in Na; lia].
    rewrite (w_deref _ _ _ _ (t_weak _ _ _ _ T) 0%nat s a n Rs Na N). cbn [bind].
    rewrite (hits_S _ _ _ Na) in *. rewrite hits_0 in *. destruct (p a) eqn:P; [|lia].
    exists s, 0%nat. repeat split; try assumption; try lia. right. exists a. split; assumption.
  - destruct (nth_error xs (S idx)) as [a|] eqn:Na; [|apply nth_error_None in Na; lia].
    rewrite (w_deref _ _ _ _ (t_weak _ _ _ _ T) (S idx) s a n Rs Na N). cbn [bind].
    rewrite (hits_S _ _ _ Na) in *. destruct (p a) eqn:P.
    + exists s, (S idx). repeat split; try assumption; try lia. right. exists a. split; assumption.
    + destruct (w_dec _ _ _ _ (t_weak _ _ _ _ T) idx s n C Rs N) as (s1 & E1 & R1).
      rewrite E1. cbn [bind]. replace (hits xs (S idx) + 0)%nat with (hits xs (S idx)) in * by lia.
      destruct (IH k n s1 C ltac:(lia) N ltac:(lia) R1 H) as (s' & idx' & Es & Rs' & Li & Q).
      exists s', idx'. repeat split; try assumption; try lia; apply Q.
Qed.

Definition filterR (k : nat) (s : filter_state (state i)) : Prop :=
  exists idx, R idx (pos s) /\ R (length xs) (stop s) /\ lands xs k idx.

Lemma filter_tracks : tracks (F + length xs + 2) (filter_iter p i) (filter p xs) filterR.
Proof using T.
  destruct T as [W T1 T2 T3 T4 T5]. pose proof W as [H1 H2 H3 H4 H5 H6 H7 H8 H9].
  assert (C : cat (filter_iter p i) <> RandomAccess).
  { cbn [filter_iter cat]. unfold filter_cat. destruct (cat i); discriminate. }
  assert (CF : cat (filter_iter p i) <> Forward -> cat i <> Forward).
  { cbn [filter_iter cat]. unfold filter_cat. destruct (cat i); congruence. }
  constructor; [constructor|..]; try (intros; congruence).
  - intros k s (idx & _ & _ & L & E & _). subst. apply hits_le. exact L.
  - intros k s (idx & R1 & R2 & L). cbn [filter_iter copy].
    destruct (H2 _ _ R1) as (x & Ex & Rx). destruct (H2 _ _ R2) as (y & Ey & Ry).
    rewrite Ex, Ey. cbn [bind]. exists (MkFs x y). split; [reflexivity|]. exists idx. repeat split; try assumption; apply L.
  - intros k s f (idx & R1 & R2 & L) K Ff. cbn [filter_iter inc].
    pose proof L as (Li & Eh & M). destruct M as [M|(a & Na & Pa)].
    { exfalso. subst idx. rewrite hits_end in Eh. lia. }
    assert (Lx : (idx < length xs)%nat) by (apply nth_error_Some; rewrite Na; discriminate).
    destruct (H3 idx (pos s) f R1 Lx ltac:(lia)) as (x & Ex & Rx). rewrite Ex. cbn [bind].
    destruct (skip_forward_lands (length xs - S idx) f f (S idx) x (stop s)) as (y & idx' & Ey & Ry & Ly & Q);
      try assumption; try lia.
    rewrite Ey. cbn [bind]. exists (MkFs y (stop s)). split; [reflexivity|].
    exists idx'. cbn [pos stop]. split; [exact Ry|]. split; [exact R2|].
    rewrite (hits_S _ _ _ Na), Pa, Eh in Q. replace (k + 1)%nat with (S k) in Q by lia. exact Q.
  - intros k s f Cf (idx & R1 & R2 & L) Ff. cbn [filter_iter dec].
    pose proof L as (Li & Eh & M). destruct idx as [|idx]; [rewrite hits_0 in Eh; lia|].
    destruct (H4 idx (pos s) f (CF Cf) R1 ltac:(lia)) as (x & Ex & Rx). rewrite Ex. cbn [bind].
    destruct (skip_backward_lands idx f f x (CF Cf)) as (y & idx' & Ey & Ry & Ly & Q); try assumption; try lia.
    rewrite Ey. cbn [bind]. exists (MkFs y (stop s)). split; [reflexivity|].
    exists idx'. cbn [pos stop]. split; [exact Ry|]. split; [exact R2|].
    rewrite Eh in Q. replace (S k - 1)%nat with k in Q by lia. exact Q.
  - intros k s a f (idx & R1 & _ & L) N Ff. cbn [filter_iter deref].
    destruct (lands_nth _ _ _ _ L N) as [Na _]. apply (H5 idx (pos s) a f R1 Na). lia.
  - intros k s t (idx & R1 & _ & L) (idy & R2 & _ & M). cbn [filter_iter ne].
    pose proof (lands_unique _ _ _ _ L M). subst idy. apply (H6 idx); assumption.
  - intros j k s t (idx & R1 & _ & L) (idy & R2 & _ & M) D. cbn [filter_iter ne].
    apply (T1 idx idy); try assumption. intro. subst idy. apply D.
    destruct L as (_ & L & _). destruct M as (_ & M & _). congruence.
Qed.

Lemma filter_make_begin : forall n b e, (F + length xs + 2 <= n)%nat ->
  R 0%nat b -> R (length xs) e ->
  exists s, filter_make p i n b e = Ok s /\ filterR 0 s.
Proof using T.
  intros n b e L Rb Re. unfold filter_make. destruct T as [W _ _ _ _ _].
  destruct (w_copy _ _ _ _ W _ _ Rb) as (x & Ex & Rx). destruct (w_copy _ _ _ _ W _ _ Re) as (y & Ey & Ry).
  rewrite Ex, Ey. cbn [bind].
  destruct (skip_forward_lands (length xs) n n 0%nat x y) as (z & idx & Ez & Rz & _ & Q); try assumption; try lia.
  rewrite Ez. cbn [bind]. eexists. split; [reflexivity|]. exists idx. cbn [pos stop].
  split; [exact Rz|]. split; [exact Ry|]. exact Q.
Qed.

Lemma filter_make_end : forall n e, (F + length xs + 2 <= n)%nat -> R (length xs) e ->
  exists s, filter_make p i n e e = Ok s /\ filterR (length (filter p xs)) s.
Proof using T.
  intros n e L Re. unfold filter_make. destruct T as [W _ _ _ _ _].
  destruct (w_copy _ _ _ _ W _ _ Re) as (x & Ex & Rx).
  rewrite Ex. cbn [bind].
  destruct (skip_forward_lands 0 n n (length xs) x x) as (z & idx & Ez & Rz & Li & Q); try assumption; try lia.
  rewrite Ez. cbn [bind]. eexists. split; [reflexivity|]. exists idx. cbn [pos stop].
  split; [exact Rz|]. split; [exact Rx|]. rewrite hits_end in Q. exact Q.
Qed.

(* ---- caching filter over trivial elements ---- *)

Lemma cskip_forward_same : forall k n e s c,
  match skip_forward p i k n e s with
  | Ok s' => exists c', cskip_forward CTrivial p i k n e s c = Ok (s', c') /\
      (ne i s' e = true -> exists a, deref i n s' = Ok a /\ c' = Some a)
  | Bad => cskip_forward CTrivial p i k n e s c = Bad
  | NoFuel => cskip_forward CTrivial p i k n e s c = NoFuel
  end.
Proof.
  induction k as [|k IH]; intros n e s c; cbn [skip_forward cskip_forward]; [reflexivity|].
  destruct (ne i s e) eqn:E.
  - destruct (deref i n s) as [a| |] eqn:D; cbn [bind]; [|reflexivity|reflexivity].
    assert (Sv : save_cache CTrivial c a = Ok (Some a)) by (destruct c; reflexivity).
    rewrite Sv. cbn [bind]. destruct (p a).
    + exists (Some a). split; [reflexivity|]. intros _. exists a. split; [exact D|reflexivity].
    + destruct (inc i n s) as [t| |]; cbn [bind]; [apply IH|reflexivity|reflexivity].
  - exists c. split; [reflexivity|]. intro Q. congruence.
Qed.

Lemma cskip_backward_same : forall k n s c,
  match skip_backward p i k n s with
  | Ok s' => exists a, cskip_backward CTrivial p i k n s c = Ok (s', Some a) /\ deref i n s' = Ok a
  | Bad => cskip_backward CTrivial p i k n s c = Bad
  | NoFuel => cskip_backward CTrivial p i k n s c = NoFuel
  end.
Proof.
  induction k as [|k IH]; intros n s c; cbn [skip_backward cskip_backward]; [reflexivity|].
  destruct (deref i n s) as [a| |] eqn:D; cbn [bind]; [|reflexivity|reflexivity].
  assert (Sv : save_cache CTrivial c a = Ok (Some a)) by (destruct c; reflexivity).
  rewrite Sv. cbn [bind]. destruct (p a).
  - exists a. split; [reflexivity|exact D].
  - destruct (dec i n s) as [t| |]; cbn [bind]; [apply IH|reflexivity|reflexivity].
Qed.

Definition cachingR (k : nat) (s : cached_state (state i) A) : Prop :=
  filterR k (MkFs (cpos s) (cstop s)) /\ forall a, nth_error (filter p xs) k = Some a -> cache s = Some a.

Lemma filterR_ne : forall k s, filterR k s -> (k < length (filter p xs))%nat -> ne i (pos s) (stop s) = true.
Proof using T.
  intros k s (idx & R1 & R2 & L) K. apply (t_ne _ _ _ _ T idx (length xs)); try assumption.
  intro E. destruct L as (_ & L & _). subst idx. rewrite hits_end in L. lia.
Qed.

Lemma filterR_deref : forall k s a n, filterR k s -> nth_error (filter p xs) k = Some a -> (F <= n)%nat ->
  deref i n (pos s) = Ok a.
Proof using T.
  intros k s a n (idx & R1 & R2 & L) N K. destruct (lands_nth _ _ _ _ L N) as [Na _].
  apply (w_deref _ _ _ _ (t_weak _ _ _ _ T) idx); assumption.
Qed.

Lemma caching_tracks : tracks (F + length xs + 2) (caching_iter CTrivial p i) (filter p xs) cachingR.
Proof using T.
  pose proof filter_tracks as [[H1 H2 H3 H4 H5 H6 H7 H8 H9] T1 T2 T3 T4 T5].
  assert (C : cat (caching_iter CTrivial p i) <> RandomAccess).
  { cbn [caching_iter cat]. unfold filter_cat. destruct (cat i); discriminate. }
  constructor; [constructor|..]; try (intros; congruence).
  - intros k s [H _]. apply (H1 _ _ H).
  - intros k s [H G]. cbn [caching_iter copy copy_cache bind].
    destruct (H2 _ _ H) as (t & E & Rt). cbn [filter_iter copy pos stop] in E.
    destruct (copy i (cpos s)) as [x| |]; cbn [bind] in *; try discriminate.
    destruct (copy i (cstop s)) as [y| |]; cbn [bind] in *; try discriminate.
    injection E as E. subst t. eexists. split; [reflexivity|]. split; assumption.
  - intros k s f [H G] K L. destruct (H3 k _ f H K L) as (t & E & Rt).
    cbn [caching_iter inc]. cbn [filter_iter inc pos stop] in E.
    destruct (inc i f (cpos s)) as [x| |]; cbn [bind] in *; try discriminate.
    pose proof (cskip_forward_same f f (cstop s) x (cache s)) as Q.
    destruct (skip_forward p i f f (cstop s) x) as [y| |]; cbn [bind] in *; try discriminate.
    injection E as E. subst t. destruct Q as (c' & Q & V). rewrite Q. cbn [bind fst snd].
    eexists. split; [reflexivity|]. split; [exact Rt|]. cbn [cache].
    intros a Na. assert (Kn : (S k < length (filter p xs))%nat) by (apply nth_error_Some; rewrite Na; discriminate).
    destruct (V (filterR_ne _ _ Rt Kn)) as (b & Db & Eb).
    pose proof (filterR_deref _ _ a f Rt Na ltac:(lia)) as Da. cbn [pos] in Da. congruence.
  - intros k s f Cf [H G] L. destruct (H4 k _ f Cf H L) as (t & E & Rt).
    cbn [caching_iter dec]. cbn [filter_iter dec pos stop] in E.
    destruct (dec i f (cpos s)) as [x| |]; cbn [bind] in *; try discriminate.
    pose proof (cskip_backward_same f f x (cache s)) as Q.
    destruct (skip_backward p i f f x) as [y| |]; cbn [bind] in *; try discriminate.
    injection E as E. subst t. destruct Q as (b & Q & V). rewrite Q. cbn [bind fst snd].
    eexists. split; [reflexivity|]. split; [exact Rt|]. cbn [cache].
    intros a Na. pose proof (filterR_deref _ _ a f Rt Na ltac:(lia)) as Da. cbn [pos] in Da. congruence.
  - intros k s a f [H G] N L. cbn [caching_iter deref]. rewrite (G a N). reflexivity.
  - intros k s t [H _] [H' _]. apply (H6 k _ _ H H').
  - intros j k s t [H _] [H' _] D. apply (T1 j k _ _ H H' D).
Qed.

Lemma caching_make_begin : forall n b e, (F + length xs + 2 <= n)%nat ->
  R 0%nat b -> R (length xs) e ->
  exists s, caching_make CTrivial p i n b e = Ok s /\ cachingR 0 s.
Proof using T.
  intros n b e L Rb Re. destruct (filter_make_begin n b e L Rb Re) as (s & E & Q).
  unfold filter_make in E. unfold caching_make.
  destruct (copy i b) as [x| |]; cbn [bind] in *; try discriminate.
  destruct (copy i e) as [y| |]; cbn [bind] in *; try discriminate.
  pose proof (cskip_forward_same n n y x None) as Z.
  destruct (skip_forward p i n n y x) as [z| |]; cbn [bind] in *; try discriminate.
  injection E as E. subst s. destruct Z as (c' & Z & V). rewrite Z. cbn [bind fst snd].
  eexists. split; [reflexivity|]. split; [exact Q|]. cbn [cache].
  intros a Na. assert (Kn : (0 < length (filter p xs))%nat) by (apply nth_error_Some; rewrite Na; discriminate).
  destruct (V (filterR_ne _ _ Q Kn)) as (c & Dc & Ec).
  pose proof (filterR_deref _ _ a n Q Na ltac:(lia)) as Da. cbn [pos] in Da. congruence.
Qed.

Lemma caching_make_end : forall n e, (F + length xs + 2 <= n)%nat -> R (length xs) e ->
  exists s, caching_make CTrivial p i n e e = Ok s /\ cachingR (length (filter p xs)) s.
Proof using T.
  intros n e L Re. destruct (filter_make_end n e L Re) as (s & E & Q).
  unfold filter_make in E. unfold caching_make.
  destruct (copy i e) as [y| |]; cbn [bind] in *; try discriminate.
  pose proof (cskip_forward_same n n y y None) as Z.
  destruct (skip_forward p i n n y y) as [z| |]; cbn [bind] in *; try discriminate.
  injection E as E. subst s. destruct Z as (c' & Z & V). rewrite Z. cbn [bind fst snd].
  eexists. split; [reflexivity|]. split; [exact Q|].
  intros a Na. exfalso.
  assert (Kn : (length (filter p xs) < length (filter p xs))%nat) by (apply nth_error_Some; rewrite Na; discriminate). lia.
Qed.

End FilterProofs.

(* ---- reverse ---- *)

Lemma nth_error_rev : forall A (xs : list A) k,
  (k < length xs)%nat -> nth_error (rev xs) k = nth_error xs (length xs - S k).
Proof.
  intros A xs k H. destruct xs as [|d xs']; [cbn in H; lia|].
  set (l := d :: xs') in *. clearbody l.
  rewrite (nth_error_nth' (rev l) d) by (rewrite rev_length; exact H).
  rewrite (nth_error_nth' l d) by lia. rewrite rev_nth by exact H. reflexivity.
Qed.

Lemma reverse_tracks : forall A F (i : iterator A) xs R,
  tracks F i xs R -> cat i <> Forward -> stash i = false ->
  tracks F (reverse_iter i) (rev xs) (fun k s => (k <= length xs)%nat /\ R (length xs - k)%nat s).
Proof.
  intros A F i xs R [[H1 H2 H3 H4 H5 H6 H7 H8 H9] G1 G2 G3 G4 G5] C St.
  constructor; [constructor|..]; rewrite ?rev_length; cbn [reverse_iter copy inc dec deref ne lt add sub diff cat].
  - intros k s [L _]. exact L.
  - intros k s [L Q]. destruct (H2 _ _ Q) as (t & E & Rt). exists t. repeat split; assumption.
  - intros k s f [L Q] K Ff. destruct (H4 (length xs - S k)%nat s f C) as (t & E & Rt); [|exact Ff|].
    { replace (S (length xs - S k)) with (length xs - k)%nat by lia. exact Q. }
    exists t. repeat split; try assumption; lia.
  - intros k s f _ [L Q] Ff. destruct (H3 _ s f Q ltac:(lia) Ff) as (t & E & Rt).
    exists t. split; [exact E|split; [lia|]].
    replace (length xs - k)%nat with (S (length xs - S k)) by lia. exact Rt.
  - intros k s a f [L Q] N Ff.
    assert (K : (k < length xs)%nat).
    { rewrite <- rev_length. apply nth_error_Some. rewrite N. discriminate. }
    rewrite nth_error_rev in N by exact K.
    destruct (H2 _ _ Q) as (t & E & Rt). rewrite E. cbn [bind].
    destruct (H4 (length xs - S k)%nat t f C) as (u & Eu & Ru); [|exact Ff|].
    { replace (S (length xs - S k)) with (length xs - k)%nat by lia. exact Rt. }
    rewrite Eu. cbn [bind]. rewrite St. apply (H5 (length xs - S k)%nat); assumption.
  - intros k s t [L Q] [L' Q']. apply (H6 (length xs - k)%nat); assumption.
  - intros j k s t Ra [L Q] [L' Q'] K. apply (H7 (length xs - k)%nat (length xs - j)%nat); try assumption. lia.
  - intros k s Ra [L Q] K. destruct (G3 (length xs - S k)%nat s Ra) as (t & E & Rt).
    { replace (S (length xs - S k)) with (length xs - k)%nat by lia. exact Q. }
    exists t. repeat split; try assumption; lia.
  - intros k s Ra [L Q]. destruct (G4 _ s Ra Q ltac:(lia)) as (t & E & Rt).
    exists t. split; [exact E|split; [lia|]].
    replace (length xs - k)%nat with (S (length xs - S k)) by lia. exact Rt.
  - intros j k s t [L Q] [L' Q'] D. apply (G1 (length xs - j)%nat (length xs - k)%nat); try assumption. lia.
  - intros j k s t Ra [L Q] [L' Q'] K. apply (G2 (length xs - k)%nat (length xs - j)%nat); try assumption. lia.
  - intros k s Ra [L Q]. destruct (H8 _ s Ra Q ltac:(lia)) as (t & E & Rt).
    exists t. split; [exact E|split; [lia|]].
    replace (length xs - k)%nat with (S (length xs - S k)) by lia. exact Rt.
  - intros k s Ra [L Q] K. destruct (H9 (length xs - S k)%nat s Ra) as (t & E & Rt).
    { replace (S (length xs - S k)) with (length xs - k)%nat by lia. exact Q. }
    exists t. repeat split; try assumption; lia.
  - intros j k s t Ra [L Q] [L' Q'] K.
    rewrite (G5 (length xs - k)%nat (length xs - j)%nat t s Ra Q' Q) by lia. f_equal. lia.
Qed.

(* ---- tail ---- *)

Lemma tail_tracks : forall A F (i : iterator A) x xs R,
  tracks F i (x :: xs) R -> tracks F i xs (fun k s => R (S k) s).
Proof.
  intros A F i x xs R [[H1 H2 H3 H4 H5 H6 H7 H8 H9] G1 G2 G3 G4 G5]. cbn [length] in *.
  constructor; [constructor|..].
  - intros k s Q. pose proof (H1 _ _ Q). lia.
  - intros k s Q. apply (H2 _ _ Q).
  - intros k s f Q K Ff. apply (H3 _ _ f Q); lia.
  - intros k s f C Q Ff. apply (H4 _ _ f C Q Ff).
  - intros k s a f Q N Ff. apply (H5 (S k) s a f Q N Ff).
  - intros k s t Q Q'. apply (H6 _ _ _ Q Q').
  - intros j k s t C Q Q' K. apply (H7 _ _ _ _ C Q Q'). lia.
  - intros k s C Q K. apply (H8 _ _ C Q). lia.
  - intros k s C Q. apply (H9 _ _ C Q).
  - intros j k s t Q Q' D. apply (G1 _ _ _ _ Q Q'). lia.
  - intros j k s t C Q Q' K. apply (G2 _ _ _ _ C Q Q'). lia.
  - intros k s C Q. apply (G3 _ _ C Q).
  - intros k s C Q K. apply (G4 _ _ C Q). lia.
  - intros j k s t C Q Q' K. rewrite (G5 _ _ _ _ C Q Q') by lia. f_equal. lia.
Qed.

(* ---- zip ---- *)

Lemma nil_weak : forall F n, weak F nil_iter (repeat tt n) (fun k _ => (k <= n)%nat).
Proof.
  intros F n. constructor; rewrite ?repeat_length; cbn [nil_iter copy inc dec deref ne lt add cat].
  - intros k s H. exact H.
  - intros k s H. exists s. split; [reflexivity|exact H].
  - intros k s f H K _. exists s. split; [reflexivity|lia].
  - intros k s f _ H _. exists s. split; [reflexivity|lia].
  - intros k s a f _ _ _. destruct a. reflexivity.
  - reflexivity.
  - reflexivity.
  - intros k s _ H K. exists s. split; [reflexivity|lia].
  - intros k s _ H. exists s. split; [reflexivity|lia].
Qed.

Lemma nth_error_combine : forall A B (xs : list A) (ys : list B) k a b,
  nth_error (combine xs ys) k = Some (a, b) -> nth_error xs k = Some a /\ nth_error ys k = Some b.
Proof.
  induction xs as [|x xs IH]; intros [|y ys] k a b H; try (destruct k; discriminate).
  destruct k as [|k]; cbn [combine nth_error] in *.
  - injection H as H1 H2. subst. split; reflexivity.
  - apply IH. exact H.
Qed.

Lemma cat_min_forward : forall a b, cat_min a b <> Forward -> a <> Forward /\ b <> Forward.
Proof. intros [] []; cbn; intuition congruence. Qed.

Lemma cat_min_random : forall a b, cat_min a b = RandomAccess -> a = RandomAccess /\ b = RandomAccess.
Proof. intros [] []; cbn; intuition congruence. Qed.

Lemma cons_weak : forall A B F (i : iterator A) (j : iterator B) xs ys R Q,
  weak F i xs R -> weak F j ys Q -> length xs = length ys ->
  weak F (cons_iter i j) (combine xs ys) (fun k s => R k (fst s) /\ Q k (snd s)).
Proof.
  intros A B F i j xs ys R Q [H1 H2 H3 H4 H5 H6 H7 H8 H9] [G1 G2 G3 G4 G5 G6 G7 G8 G9] L.
  constructor; rewrite ?combine_length, <- ?L, ?Nat.min_id;
    cbn [cons_iter copy inc dec deref ne lt add cat].
  - intros k s [X _]. apply (H1 _ _ X).
  - intros k s [X Y]. destruct (H2 _ _ X) as (x & E1 & X'). destruct (G2 _ _ Y) as (y & E2 & Y').
    rewrite E1, E2. cbn [bind]. exists (x, y). repeat split; assumption.
  - intros k s f [X Y] K Ff. destruct (H3 _ _ f X K Ff) as (x & E1 & X').
    destruct (G3 _ _ f Y ltac:(lia) Ff) as (y & E2 & Y').
    rewrite E1, E2. cbn [bind]. exists (x, y). repeat split; assumption.
  - intros k s f C [X Y] Ff. destruct (cat_min_forward _ _ C) as [C1 C2].
    destruct (H4 _ _ f C1 X Ff) as (x & E1 & X'). destruct (G4 _ _ f C2 Y Ff) as (y & E2 & Y').
    rewrite E1, E2. cbn [bind]. exists (x, y). repeat split; assumption.
  - intros k s [a b] f [X Y] N Ff. destruct (nth_error_combine _ _ _ _ _ _ _ N) as [N1 N2].
    rewrite (H5 _ _ _ f X N1 Ff), (G5 _ _ _ f Y N2 Ff). reflexivity.
  - intros k s t [X Y] [X' Y']. rewrite (H6 _ _ _ X X'), (G6 _ _ _ Y Y'). reflexivity.
  - intros m k s t C [X Y] [X' Y'] K. destruct (cat_min_random _ _ C) as [C1 C2].
    rewrite (H7 _ _ _ _ C1 X X' K), (G7 _ _ _ _ C2 Y Y' K). reflexivity.
  - intros k s C [X Y] K. destruct (cat_min_random _ _ C) as [C1 C2].
    destruct (H8 _ _ C1 X K) as (x & E1 & X'). destruct (G8 _ _ C2 Y ltac:(lia)) as (y & E2 & Y').
    rewrite E1, E2. cbn [bind]. exists (x, y). repeat split; assumption.
  - intros k s C [X Y]. destruct (cat_min_random _ _ C) as [C1 C2].
    destruct (H9 _ _ C1 X) as (x & E1 & X'). destruct (G9 _ _ C2 Y) as (y & E2 & Y').
    rewrite E1, E2. cbn [bind]. exists (x, y). repeat split; assumption.
Qed.

Lemma cons_tracks : forall A B F (i : iterator A) (j : iterator B) xs ys R Q,
  tracks F i xs R -> weak F j ys Q -> length xs = length ys ->
  tracks F (cons_iter i j) (combine xs ys) (fun k s => R k (fst s) /\ Q k (snd s)).
Proof.
  intros A B F i j xs ys R Q T W L. pose proof (cons_weak _ _ _ _ _ _ _ _ _ (t_weak _ _ _ _ T) W L) as V.
  destruct T as [[H1 H2 H3 H4 H5 H6 H7 H8 H9] G1 G2 G3 G4 G5]. destruct W as [W1 W2 W3 W4 W5 W6 W7 W8 W9].
  constructor; [exact V|..]; rewrite ?combine_length, <- ?L, ?Nat.min_id;
    cbn [cons_iter ne lt sub diff cat].
  - intros m k s t [X _] [X' _] D. rewrite (G1 _ _ _ _ X X' D). reflexivity.
  - intros m k s t C [X _] [X' _] K. destruct (cat_min_random _ _ C) as [C1 C2].
    rewrite (G2 _ _ _ _ C1 X X' K). reflexivity.
  - intros k s C [X Y]. destruct (cat_min_random _ _ C) as [C1 C2].
    destruct (H9 _ _ C1 X) as (x & E1 & X'). destruct (W9 _ _ C2 Y) as (y & E2 & Y').
    change (- (1)) with (-1). rewrite E1, E2. cbn [bind]. exists (x, y). repeat split; assumption.
  - intros k s C [X Y] K. destruct (cat_min_random _ _ C) as [C1 C2].
    destruct (H8 _ _ C1 X K) as (x & E1 & X'). destruct (W8 _ _ C2 Y ltac:(lia)) as (y & E2 & Y').
    change (- (-1)) with 1. rewrite E1, E2. cbn [bind]. exists (x, y). repeat split; assumption.
  - intros m k s t C [X _] [X' _] K. destruct (cat_min_random _ _ C) as [C1 C2].
    apply (G5 _ _ _ _ C1 X X' K).
Qed.
