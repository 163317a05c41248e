(* C81: the case of a match expression.  C82: choices of types. *)
From Coq Require Import List Bool Arith ZArith Lia.
From Verif Require Import ConvertModel TraitModel.
Import ListNotations.
Open Scope nat_scope.

Section Match.
Variable rank : nat -> nat -> option nat.
Lemma overloads_iff : forall cases n, n <= length cases -> forall i p, In (i, p) (overloads cases n) <->
  i < n /\ nth_error cases i = Some p /\ forall j, i < j < n -> nth_error cases j <> Some p.
Proof.
  induction n as [|k IH]; intros L i p; cbn [overloads].
  - split; [intros []|lia].
  - destruct (nth_error cases k) as [q|] eqn:Q; [|apply nth_error_None in Q; lia]. cbn [In]. rewrite filter_In, IH by lia. cbn [snd]. split.
    + intros [[= <- <-]|[(A & B & C) D]].
      * split; [lia|]. split; [exact Q|]. intros j J. lia.
      * split; [lia|]. split; [exact B|]. intros j J. destruct (Nat.eq_dec j k) as [->|]; [|apply C; lia]. rewrite Q. intros [= ->].
        rewrite Nat.eqb_refl in D. discriminate.
    + intros (A & B & C). destruct (Nat.eq_dec i k) as [->|NE]; [left; congruence|]. right. split; [split; [lia|]; split; [exact B|]; intros j J; apply C; lia|].
      destruct (Nat.eqb_spec p q) as [->|]; [|reflexivity]. destruct (C k); [lia|exact Q].
Qed.
Lemma overloads_nodup : forall cases n, n <= length cases -> NoDup (map fst (overloads cases n)).
Proof.
  induction n as [|k IH]; intros L; cbn [overloads]; [constructor|]. destruct (nth_error cases k) as [q|]; [|constructor]. cbn. constructor.
  - intros I. apply in_map_iff in I. destruct I as ([i p] & E & I). cbn in E. subst i. apply filter_In in I. destruct I as [I _].
    apply overloads_iff in I; [lia|lia].
  - specialize (IH ltac:(lia)). clear -IH. induction (overloads cases k) as [|[i p] t IHt]; [constructor|]. cbn [filter]. cbn in IH. inversion IH as [|? ? A B]; subst.
    destruct (negb _); [|auto]. cbn. constructor; [|auto]. intros I. apply A. apply in_map_iff in I. destruct I as (x & E & I). apply filter_In in I.
    rewrite <- E. apply in_map. tauto.
Qed.
Lemma viable_iff : forall a os i r, In (i, r) (viable rank a os) <-> exists p, In (i, p) os /\ rank a p = Some r.
Proof.
  intros a os i r. unfold viable. rewrite in_flat_map. split.
  - intros ([j p] & I & V). cbn in V. destruct (rank a p) as [r'|] eqn:E; [|contradiction]. destruct V as [[= <- <-]|[]]. eauto.
  - intros (p & I & E). exists (i, p). split; [exact I|]. cbn. rewrite E. left. reflexivity.
Qed.
Lemma viable_nodup : forall a os, NoDup (map fst os) -> NoDup (map fst (viable rank a os)).
Proof.
  intros a. induction os as [|[i p] t IH]; intros N; [constructor|]. cbn in N. inversion N as [|? ? A B]; subst. cbn [viable flat_map fst snd].
  fold (viable rank a t). destruct (rank a p); cbn [app]; [|apply IH; exact B]. cbn. constructor; [|apply IH; exact B].
  intros I. apply A. apply in_map_iff in I. destruct I as ([j r] & E & I). cbn in E. subst j. apply viable_iff in I. destruct I as (q & I & _).
  apply (in_map fst) in I. exact I.
Qed.
Lemma fst_fun : forall (l : list (nat * nat)) i x y, NoDup (map fst l) -> In (i, x) l -> In (i, y) l -> x = y.
Proof.
  induction l as [|[j z] t IH]; intros i x y N A B; [contradiction|]. cbn in N. inversion N as [|? ? C D]; subst.
  destruct A as [A|A], B as [B|B].
  - congruence.
  - destruct C. injection A as -> ->. apply (in_map fst) in B. exact B.
  - destruct C. injection B as -> ->. apply (in_map fst) in A. exact A.
  - apply (IH i); assumption.
Qed.
Lemma nth_skipn : forall n (l : list nat) k, nth_error (skipn n l) k = nth_error l (n + k).
Proof. induction n as [|n IH]; intros [|x l] k; try reflexivity; [destruct k; reflexivity|]. apply IH. Qed.
Lemma filter_nodup : forall g (l : list (nat * nat)), NoDup (map fst l) -> NoDup (map fst (filter g l)).
Proof.
  intros g. induction l as [|p t IH]; intros N; [constructor|]. cbn in N. inversion N as [|? ? A B]; subst. cbn [filter]. destruct (g p); [|auto]. cbn. constructor; [|auto].
  intros I. apply A. apply in_map_iff in I. destruct I as (q & E & I). apply filter_In in I. rewrite <- E. apply in_map. tauto.
Qed.
Lemma best_iff : forall vs i, NoDup (map fst vs) -> (best vs = Some i <-> exists r, In (i, r) vs /\ forall j x, In (j, x) vs -> j = i \/ r < x).
Proof.
  intros vs i N. unfold best. set (g := fun q : nat * nat => forallb (fun x => Nat.eqb (fst x) (fst q) || (snd q <? snd x)) vs).
  assert (G : forall j r, In (j, r) (filter g vs) <-> In (j, r) vs /\ forall k x, In (k, x) vs -> k = j \/ r < x).
  { intros j r. rewrite filter_In. unfold g. rewrite forallb_forall. cbn [fst snd]. split; intros [A B]; (split; [exact A|]).
    - intros k x I. specialize (B (k, x) I). cbn [fst snd] in B. apply orb_prop in B. destruct B as [B|B]; [apply Nat.eqb_eq in B; auto|apply Nat.ltb_lt in B; auto].
    - intros [k x] I. cbn [fst snd]. destruct (B k x I) as [->|L]; [rewrite Nat.eqb_refl; reflexivity|]. apply Nat.ltb_lt in L. rewrite L. apply orb_true_r. }
  assert (U : forall j r k x, In (j, r) (filter g vs) -> In (k, x) (filter g vs) -> j = k).
  { intros j r k x A B. apply G in A, B. destruct A as [A A'], B as [B B']. destruct (A' _ _ B) as [|L]; [congruence|]. destruct (B' _ _ A) as [|L']; [congruence|lia]. }
  pose proof (filter_nodup g vs N) as NF.
  destruct (filter g vs) as [|[j r] [|[k x] t]] eqn:F.
  - split; [discriminate|]. intros (r & H). apply G in H. contradiction.
  - split.
    + intros [= ->]. exists r. apply G. left. reflexivity.
    + intros (x & H). apply G in H. destruct H as [[= -> ->]|[]]. reflexivity.
  - exfalso. cbn in NF. inversion NF as [|? ? A _]; subst. apply A. left. symmetry. apply (U j r k x); cbn; auto.
Qed.
(* The case called is the last of its parameter type, and the argument converts to that
   type better than to the type of any other case; without such a case the expression
   does not compile. *)
Theorem C81_case : forall cases a i, matched rank cases a = Some i <->
  exists p r, nth_error cases i = Some p /\ rank a p = Some r /\ (forall j, i < j -> nth_error cases j <> Some p) /\
    forall q x, In q cases -> rank a q = Some x -> q = p \/ r < x.
Proof.
  intros cases a i. unfold matched. set (os := overloads cases (length cases)).
  assert (OS : forall i p, In (i, p) os <-> i < length cases /\ nth_error cases i = Some p /\ forall j, i < j < length cases -> nth_error cases j <> Some p).
  { intros. apply overloads_iff. reflexivity. }
  assert (ON : NoDup (map fst os)) by (apply overloads_nodup; reflexivity).
  rewrite best_iff by (apply viable_nodup; exact ON). split.
  - intros (r & I & B). apply viable_iff in I. destruct I as (p & I & R). apply OS in I as J. destruct J as (L & N & H). exists p, r.
    split; [exact N|]. split; [exact R|]. split.
    + intros j J X. assert (j < length cases) by (apply nth_error_Some; congruence). apply (H j); [lia|exact X].
    + intros q x Q RQ.
      assert (LAST : exists k, In (k, q) os).
      { apply In_nth_error in Q. destruct Q as [k K]. assert (KL : k < length cases) by (apply nth_error_Some; congruence).
        assert (D : forall d k, length cases - k <= d -> k < length cases -> nth_error cases k = Some q -> exists m, In (m, q) os).
        { induction d as [|d IH]; intros m D ML MQ; [lia|].
          destruct (In_dec Nat.eq_dec q (skipn (S m) cases)) as [Y|Y].
          - apply In_nth_error in Y. destruct Y as [y Y]. assert (YE : nth_error cases (S m + y) = Some q).
            { rewrite <- nth_skipn. exact Y. }
            assert (S m + y < length cases) by (apply nth_error_Some; congruence). apply (IH (S m + y)); [lia|lia|exact YE].
          - exists m. apply OS. split; [exact ML|]. split; [exact MQ|]. intros j J X. apply Y.
            replace j with (S m + (j - S m)) in X by lia. rewrite <- nth_skipn in X. apply nth_error_In in X. exact X. }
        apply (D (length cases) k); [lia|exact KL|exact K]. }
      destruct LAST as [k K]. destruct (B k x) as [->|]; [apply viable_iff; eauto|left|right; assumption].
      apply (fst_fun os i); [exact ON|exact K|exact I].
  - intros (p & r & N & R & H & B). assert (L : i < length cases) by (apply nth_error_Some; congruence).
    exists r. assert (I : In (i, p) os) by (apply OS; split; [exact L|]; split; [exact N|]; intros j J; apply H; lia).
    split; [apply viable_iff; eauto|]. intros j x J. apply viable_iff in J. destruct J as (q & J & RQ). apply OS in J as (JL & JN & JH).
    destruct (B q x) as [->|]; [apply nth_error_In in JN; exact JN|exact RQ| |auto].
    left. destruct (Nat.lt_trichotomy i j) as [X|[X|X]]; [destruct (H j X JN)|auto|]. destruct (JH i); [lia|exact N].
Qed.
(* in particular, if the argument's own type is listed and nothing converts as well,
   the last case of that type is called *)
Theorem C81_exact : forall cases a i, nth_error cases i = Some a -> (forall j, i < j -> nth_error cases j <> Some a) ->
  rank a a = Some 0 -> (forall q, q <> a -> rank a q <> Some 0) -> matched rank cases a = Some i.
Proof.
  intros cases a i N H R Q. apply C81_case. exists a, 0. split; [exact N|]. split; [exact R|]. split; [exact H|].
  intros q x _ RQ. destruct (Nat.eq_dec q a); [auto|]. right. destruct x; [destruct (Q q); auto|lia].
Qed.
End Match.
Print Assumptions C81_case.
Print Assumptions C81_exact.
(* 0 int, 1 double, 2 a class: identity, then conversions between the numbers *)
Definition ranks (a p : nat) : option nat := if a =? p then Some 0 else if (a <? 2) && (p <? 2) then Some 1 else None.
Example C81_ex : matched ranks [1; 0; 2] 0 = Some 1 /\ matched ranks [1; 2] 0 = Some 0 /\ matched ranks [1; 0] 2 = None.
Proof. repeat split. Qed.
(* one would expect the first of two cases that fit to be called: it is hidden *)
Theorem C81_first_refuted : exists cases a, nth_error cases 0 = Some a /\ ranks a a = Some 0 /\ matched ranks cases a = Some 2.
Proof. exists [0; 1; 0], 0. repeat split. Qed.
Print Assumptions C81_first_refuted.

Theorem C82_same : forall a b l, is_same a (b :: l) = true <-> forall x, In x (b :: l) -> x = a.
Proof.
  intros a b l. revert a b. induction l as [|c t IH]; intros a b.
  - cbn. rewrite Nat.eqb_eq. split; [intros -> x [<-|[]]; reflexivity|]. intros H. symmetry. apply H. left. reflexivity.
  - change (is_same a (b :: c :: t)) with (Nat.eqb a b && is_same b (c :: t)). rewrite andb_true_iff, Nat.eqb_eq, IH. split.
    + intros [-> H] x [<-|I]; [reflexivity|auto].
    + intros H. assert (b = a) by (apply H; left; reflexivity). subst. split; [reflexivity|]. intros x I. apply H. right. exact I.
Qed.
Theorem C82_one_of : forall a b l, one_of a (b :: l) = true <-> In a (b :: l).
Proof.
  intros a b l. revert b. induction l as [|c t IH]; intros b.
  - cbn. rewrite Nat.eqb_eq. split; [intros ->; auto|intros [->|[]]; reflexivity].
  - change (one_of a (b :: c :: t)) with (Nat.eqb a b || one_of a (c :: t)). rewrite orb_true_iff, Nat.eqb_eq, IH. cbn [In]. split; intros [H|H]; auto.
Qed.
Theorem C82_has_trait : forall trait b l, has_trait trait (b :: l) = true <-> forall x, In x (b :: l) -> trait x = true.
Proof.
  intros trait b l. revert b. induction l as [|c t IH]; intros b.
  - cbn. split; [intros H x [<-|[]]; exact H|]. intros H. apply H. auto.
  - change (has_trait trait (b :: c :: t)) with (trait b && has_trait trait (c :: t)). rewrite andb_true_iff, IH. split.
    + intros [A B] x [<-|I]; auto.
    + intros H. split; [apply H; left; reflexivity|]. intros x I. apply H. right. exact I.
Qed.
Open Scope Z_scope.
(* the values of an integer type *)
Definition holds (signed : bool) (n v : Z) : Prop := if signed then - 2 ^ (n - 1) <= v < 2 ^ (n - 1) else 0 <= v < 2 ^ n.
(* the narrowest type that holds a value *)
Definition narrowest (signed : bool) (v : Z) (n : Z) : Prop :=
  In n [8; 16; 32; 64] /\ holds signed n v /\ forall m, In m [8; 16; 32; 64] -> m < n -> ~ holds signed m v.
Lemma fits_iff : forall s n v, In n [8; 16; 32; 64] -> fits_type (Int s n) (Int s 64) v = true <-> holds s n v.
Proof.
  intros s n v I. unfold fits_type, holds. rewrite andb_true_iff, !Z.leb_le.
  assert (A : cast (Int s 64) (min_of (Int s n)) = (if s then - 2 ^ (n - 1) else 0) /\ cast (Int s 64) (max_of (Int s n)) = (if s then 2 ^ (n - 1) else 2 ^ n) - 1).
  { destruct s; repeat (destruct I as [<-|I]; [split; reflexivity|]); contradiction. }
  destruct A as [-> ->]. destruct s; lia.
Qed.
Lemma narrowest_of : forall s v, holds s 64 v ->
  exists n, narrowest_fit_impl s (Int s 64) v 8 9 = Some (Some (Int s n)) /\ narrowest s v n.
Proof.
  intros s v B. cbn [narrowest_fit_impl Z.ltb Z.compare Pos.compare Pos.compare_cont Z.mul Pos.mul make_type existsb Z.eqb Pos.eqb orb].
  assert (I8 : In 8 [8; 16; 32; 64]) by (cbn; auto). assert (I16 : In 16 [8; 16; 32; 64]) by (cbn; auto).
  assert (I32 : In 32 [8; 16; 32; 64]) by (cbn; auto). assert (I64 : In 64 [8; 16; 32; 64]) by (cbn; auto).
  assert (NO : forall n, In n [8; 16; 32; 64] -> fits_type (Int s n) (Int s 64) v = false -> ~ holds s n v).
  { intros n I F X. apply (fits_iff s n v I) in X. congruence. }
  destruct (fits_type (Int s 8) (Int s 64) v) eqn:F8.
  { exists 8. split; [reflexivity|]. split; [exact I8|]. split; [apply fits_iff; assumption|]. intros m I L. repeat (destruct I as [<-|I]; [lia|]). contradiction. }
  apply NO in F8; [|exact I8]. destruct (fits_type (Int s 16) (Int s 64) v) eqn:F16.
  { exists 16. split; [reflexivity|]. split; [exact I16|]. split; [apply fits_iff; assumption|]. intros m I L. repeat (destruct I as [<-|I]; [assumption || lia|]). contradiction. }
  apply NO in F16; [|exact I16]. destruct (fits_type (Int s 32) (Int s 64) v) eqn:F32.
  { exists 32. split; [reflexivity|]. split; [exact I32|]. split; [apply fits_iff; assumption|]. intros m I L. repeat (destruct I as [<-|I]; [assumption || lia|]). contradiction. }
  apply NO in F32; [|exact I32]. rewrite (proj2 (fits_iff s 64 v I64) B).
  exists 64. split; [reflexivity|]. split; [exact I64|]. split; [exact B|]. intros m I L. repeat (destruct I as [<-|I]; [assumption || lia|]). contradiction.
Qed.
Theorem C82_unsigned : forall v, 0 <= v < 2 ^ 64 -> exists n, narrowest_fit_unsigned v = Some (Some (Int false n)) /\ narrowest false v n.
Proof. intros v B. apply (narrowest_of false). exact B. Qed.
Theorem C82_signed : forall v, - 2 ^ 63 <= v < 2 ^ 63 -> exists n, narrowest_fit_signed v = Some (Some (Int true n)) /\ narrowest true v n.
Proof. intros v B. apply (narrowest_of true). exact B. Qed.
(* the next wider type has the same signedness and holds all values of the narrower *)
Theorem C82_wider : forall s n t, wider_type (Int s n) = Some t ->
  exists m, t = Int s m /\ (forall v, holds s n v -> holds s m v) /\ (n < 64 -> m = 2 * n).
Proof.
  intros s n t H. assert (C : (n = 8 /\ t = Int s 16) \/ (n = 16 /\ t = Int s 32) \/ (n = 32 /\ t = Int s 64) \/ (n = 64 /\ t = Int s 64)).
  { unfold wider_type in H. do 8 (try (destruct n as [|n|n]; try discriminate)); injection H as <-; auto 6. }
  destruct C as [[-> ->]|[[-> ->]|[[-> ->]|[-> ->]]]]; eexists; (split; [reflexivity|]); (split; [|lia]); intros v; unfold holds; destruct s; cbn; lia.
Qed.
Print Assumptions C82_same.
Print Assumptions C82_one_of.
Print Assumptions C82_has_trait.
Print Assumptions C82_unsigned.
Print Assumptions C82_signed.
Print Assumptions C82_wider.
Example C82_ex : narrowest_fit_unsigned 255 = Some (Some (Int false 8)) /\ narrowest_fit_unsigned 256 = Some (Some (Int false 16)) /\
  narrowest_fit_signed (-128) = Some (Some (Int true 8)) /\ narrowest_fit_signed 128 = Some (Some (Int true 16)) /\ narrowest_fit_signed (-2147483649) = Some (Some (Int true 64)).
Proof. repeat split. Qed.
Example C82_lists_ex : is_same 3 [3; 3; 3]%nat = true /\ is_same 3 [3; 4; 3]%nat = false /\ one_of 4 [3; 5; 4]%nat = true /\ has_trait (Nat.ltb 2) [3; 4; 2]%nat = false.
Proof. repeat split. Qed.
(* nothing is wider than 64 bits *)
Theorem C82_widest_refuted : exists t, wider_type t = Some t.
Proof. exists (Int true 64). reflexivity. Qed.
Print Assumptions C82_widest_refuted.
