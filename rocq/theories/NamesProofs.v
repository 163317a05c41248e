(* Proofs about NamesModel. *)
From Coq Require Import String DecimalString DecimalN List Bool NArith Arith Lia.
From Verif Require Import NamesModel.
Import ListNotations.

Lemma to_string_inj a b : to_string a = to_string b -> a = b.
Proof.
  unfold to_string. intros H. apply (f_equal NilEmpty.uint_of_string) in H. rewrite !NilEmpty.usu in H. inversion H as [K].
  now apply Unsigned.to_uint_inj in K.
Qed.
Lemma digits_uint u : all_digits (NilEmpty.string_of_uint u) = true.
Proof. induction u; simpl; try reflexivity; exact IHu. Qed.
Lemma to_string_digits a : all_digits (to_string a) = true.
Proof. apply digits_uint. Qed.
Lemma app_str_inv p a b : (p ++ a)%string = (p ++ b)%string -> a = b.
Proof. induction p; simpl; intros H; [exact H|]. inversion H. auto. Qed.
Lemma app_str_assoc a b c : (a ++ (b ++ c))%string = ((a ++ b) ++ c)%string.
Proof. induction a; simpl; [reflexivity|]. now rewrite IHa. Qed.
Lemma app_str_nil a : (a ++ "")%string = a.
Proof. induction a; simpl; [reflexivity|]. now rewrite IHa. Qed.
Lemma all_digits_app a b : all_digits (a ++ b) = all_digits a && all_digits b.
Proof. induction a; simpl; [reflexivity|]. rewrite IHa. apply andb_assoc. Qed.

Lemma lookup_store s p n q : lookup (store s p n) q = if String.eqb p q then Some n else lookup s q.
Proof.
  induction s as [|[r m] s IH]; simpl.
  - destruct (String.eqb p q); reflexivity.
  - destruct (String.eqb_spec r p); simpl.
    + subst. destruct (String.eqb p q); reflexivity.
    + rewrite IH. destruct (String.eqb_spec r q), (String.eqb_spec p q); subst; try reflexivity. contradiction.
Qed.

Definition cur (s : state) (p : string) : N := match lookup s p with None => 0%N | Some n => n end.

Lemma generate_nth calls : forall s i p, nth_error calls i = Some p ->
  (cur s p < size_max1)%N ->
  nth_error (generate s calls) i = Some (p ++ to_string ((cur s p + N.of_nat (occ p (firstn i calls))) mod size_max1))%string.
Proof.
  induction calls as [|q calls IH]; intros s i p H C; [destruct i; discriminate|].
  destruct i as [|i]; simpl in H.
  - inversion H; subst. simpl. unfold occ; simpl. fold (cur s p). rewrite N.add_0_r, N.mod_small by exact C. reflexivity.
  - simpl. fold (cur s q). assert (C' : (cur (store s q ((cur s q + 1) mod size_max1)) p < size_max1)%N).
    { unfold cur at 1. rewrite lookup_store. destruct (String.eqb q p); [apply N.mod_lt; discriminate|exact C]. }
    rewrite (IH _ i p H C'). f_equal. f_equal. f_equal. unfold cur at 1. rewrite lookup_store.
    unfold occ; simpl. rewrite String.eqb_sym. destruct (String.eqb_spec p q) as [->|]; [|reflexivity].
    simpl. rewrite N.add_mod_idemp_l by discriminate. f_equal. lia.
Qed.

Lemma occ_app p l1 l2 : occ p (l1 ++ l2) = occ p l1 + occ p l2.
Proof. unfold occ. now rewrite filter_app, app_length. Qed.
Lemma occ_lt calls p i j : i < j -> nth_error calls i = Some p -> j <= length calls -> occ p (firstn i calls) < occ p (firstn j calls).
Proof.
  revert i j. induction calls as [|q calls IH]; intros i j L H K; [destruct i; discriminate|].
  destruct i, j; try lia; simpl in *.
  - inversion H; subst. unfold occ; simpl. rewrite String.eqb_refl. simpl. lia.
  - unfold occ in *; simpl. specialize (IH i j). destruct (String.eqb p q); simpl; [apply -> Nat.succ_lt_mono|]; apply IH; auto; lia.
Qed.
Lemma occ_firstn_lt calls p j : nth_error calls j = Some p -> occ p (firstn j calls) < occ p calls.
Proof.
  intros H. assert (L : j < length calls) by (apply nth_error_Some; congruence).
  rewrite <- (firstn_all calls) at 2. now apply occ_lt.
Qed.

Lemma distinct calls i j p n : i < j -> nth_error calls i = Some p -> nth_error calls j = Some p ->
  (N.of_nat (occ p calls) <= size_max1)%N ->
  nth_error (generate [] calls) i = Some n -> nth_error (generate [] calls) j <> Some n.
Proof.
  intros L Hi Hj B E E'. assert (Z : (cur [] p < size_max1)%N) by reflexivity.
  rewrite (generate_nth calls [] i p Hi Z) in E. rewrite (generate_nth calls [] j p Hj Z) in E'.
  rewrite <- E in E'. inversion E' as [K]. apply app_str_inv in K. apply to_string_inj in K.
  unfold cur in K; simpl in K.
  pose proof (occ_firstn_lt calls p j Hj). assert (occ p (firstn i calls) < occ p (firstn j calls)).
  { apply occ_lt; auto. assert (j < length calls) by (apply nth_error_Some; congruence). lia. }
  rewrite !N.mod_small in K; lia.
Qed.

(* p ++ x = q ++ y with both tails digits: one prefix extends the other *)
Lemma split_two p : forall q x y, (p ++ x)%string = (q ++ y)%string ->
  (exists d, q = (p ++ d)%string /\ x = (d ++ y)%string) \/ (exists d, p = (q ++ d)%string /\ y = (d ++ x)%string).
Proof.
  induction p as [|c p IH]; intros q x y H; simpl in H.
  - left. exists q. auto.
  - destruct q as [|c' q]; simpl in H.
    + right. exists (String c p). auto.
    + inversion H; subst. destruct (IH q x y H2) as [(d & -> & ->)|(d & -> & ->)]; [left|right]; exists d; auto.
Qed.
Lemma collide calls i j p q n : nth_error calls i = Some p -> nth_error calls j = Some q -> p <> q ->
  nth_error (generate [] calls) i = Some n -> nth_error (generate [] calls) j = Some n ->
  extends_by_digits p q \/ extends_by_digits q p.
Proof.
  intros Hi Hj D E E'. assert (Z : forall r, (cur [] r < size_max1)%N) by (intros; reflexivity).
  rewrite (generate_nth calls [] i p Hi (Z p)) in E. rewrite (generate_nth calls [] j q Hj (Z q)) in E'.
  rewrite <- E in E'. inversion E' as [K]. symmetry in K. apply split_two in K. destruct K as [(d & -> & K)|(d & -> & K)].
  - left. exists d. split; [reflexivity|]. split; [intros ->; apply D; now rewrite app_str_nil|].
    match type of K with to_string ?z = _ => pose proof (to_string_digits z) as A end.
    rewrite K, all_digits_app in A. now apply andb_prop in A.
  - right. exists d. split; [reflexivity|]. split; [intros ->; apply D; now rewrite app_str_nil|].
    match type of K with to_string ?z = _ => pose proof (to_string_digits z) as A end.
    rewrite K, all_digits_app in A. now apply andb_prop in A.
Qed.

Lemma occ_repeat p k : occ p (repeat p k) = k.
Proof. unfold occ. induction k; simpl; [reflexivity|]. rewrite String.eqb_refl. simpl. now rewrite IHk. Qed.
Lemma firstn_repeat (p : string) i k : i <= k -> firstn i (repeat p k) = repeat p i.
Proof. revert k. induction i; intros [|k] H; simpl; try reflexivity; try lia. rewrite IHi by lia. reflexivity. Qed.
Lemma wraps_at p k : N.of_nat k = size_max1 ->
  nth_error (generate [] (repeat p (S k))) 0 = nth_error (generate [] (repeat p (S k))) k /\ nth_error (generate [] (repeat p (S k))) 0 <> None.
Proof.
  intros Ek. assert (N : forall i, i <= k -> nth_error (repeat p (S k)) i = Some p).
  { intros i L. apply nth_error_repeat. lia. }
  assert (Z : (cur [] p < size_max1)%N) by reflexivity.
  rewrite (generate_nth _ [] 0 p (N 0 (Nat.le_0_l k)) Z), (generate_nth _ [] k p (N k (Nat.le_refl k)) Z).
  split; [|discriminate].
  replace (occ p (firstn k (repeat p (S k)))) with k by (rewrite firstn_repeat by lia; now rewrite occ_repeat).
  replace (occ p (firstn 0 (repeat p (S k)))) with 0 by reflexivity.
  rewrite Ek. reflexivity.
Qed.
Lemma wrap_witness : exists (calls : list string) (i j : nat) (p n : string),
    i < j /\ nth_error calls i = Some p /\ nth_error calls j = Some p /\
    nth_error (generate [] calls) i = Some n /\ nth_error (generate [] calls) j = Some n.
Proof.
  assert (W : exists k, N.of_nat k = size_max1 /\ k > 0).
  { exists (N.to_nat size_max1). pose proof (N2Nat.id size_max1) as E. split; [exact E|].
    destruct (N.to_nat size_max1); [discriminate|lia]. }
  destruct W as (k & E & P). destruct (wraps_at EmptyString k E) as [W1 W2].
  exists (repeat EmptyString (S k)), 0, k, EmptyString.
  destruct (nth_error (generate [] (repeat EmptyString (S k))) 0) as [n|] eqn:G; [|contradiction].
  exists n. split; [exact P|]. split; [reflexivity|]. split; [apply nth_error_repeat; lia|]. split; [reflexivity|now symmetry].
Qed.
