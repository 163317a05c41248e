(* Accesses, traversals and memory operations of array_nd; programs over arrays. *)
From Coq Require Import List Bool NArith ZArith Lia Arith.
From Verif Require Import NdModel NdSpec NdProofs NdAccess ArrModel ArrSpec.
Import ListNotations.
Local Open Scope N_scope.
Set Default Proof Using "Type".

(* a shape of an array of elements of sz bytes placed at ptr *)
Definition placed (sz : N) (a : arr) : Prop :=
  shape a <> [] /\ Forall (fun e => 0 < e) (shape a) /\ base a + volume (shape a) * sz < 2 ^ 64.
Definition cell (sz : N) (a : arr) (k : N) : N := base a + k * sz.
(* where the arrays are: each in the address space, and apart from each other *)
Definition laid_out (sz : N) (arrs : list arr) : Prop :=
  0 < sz /\ Forall (placed sz) arrs /\
  forall a b, (a < b < length arrs)%nat ->
    cell sz (the arrs a) (volume (shape (the arrs a))) <= base (the arrs b) \/
    cell sz (the arrs b) (volume (shape (the arrs b))) <= base (the arrs a).

Lemma insideb_spec ext : forall is, insideb ext is = true <-> in_range ext is.
Proof.
  induction ext as [|e ext IH]; intros [|i is]; cbn; try (split; [discriminate|inversion 1]).
  - split; [constructor|reflexivity].
  - rewrite andb_true_iff, N.ltb_lt, IH. split; [intros [H1 H2]; now constructor|inversion 1; now split].
Qed.
Lemma same_index_spec is : forall js, same_index is js = true <-> is = js.
Proof.
  induction is as [|i is IH]; intros [|j js]; cbn; try (split; congruence).
  rewrite andb_true_iff, N.eqb_eq, IH. split; [intros [-> ->]; reflexivity|intros [= -> ->]; now split].
Qed.

(* ---- sizes ---- *)

Lemma volume_positive ext : Forall (fun e => 0 < e) ext -> 0 < volume ext.
Proof. apply volume_pos. Qed.

Lemma shape_total_exact ext : ext <> [] -> Forall (fun e => 0 < e) ext -> volume ext < 2 ^ 64 -> shape_total ext = volume ext.
Proof.
  intros E P B. induction ext as [|e ext IH]; [congruence|].
  destruct ext as [|x ext]; [cbn; lia|].
  inversion P as [|? ? Pe P']; subst. pose proof (volume_positive _ P') as V.
  change (shape_total (e :: x :: ext)) with (mul64 e (shape_total (x :: ext))).
  change (volume (e :: x :: ext)) with (e * volume (x :: ext)) in *.
  rewrite IH; [|discriminate|exact P'|nia]. unfold mul64. apply w64_small. exact B.
Qed.

Lemma placed_total sz a : 0 < sz -> placed sz a -> shape_total (shape a) = volume (shape a).
Proof. intros Hz (E & P & B). apply shape_total_exact; [exact E|exact P|nia]. Qed.

Lemma placed_end sz a : 0 < sz -> placed sz a -> plain_end sz a = cell sz a (volume (shape a)).
Proof.
  intros Hz H. pose proof (placed_total sz a Hz H) as T. destruct H as (E & P & B).
  unfold plain_end, cell. rewrite T. unfold add64, mul64. rewrite w64_add_r. apply w64_small. exact B.
Qed.

(* ---- accesses ---- *)

Lemma at_spec sz ext : forall ptr is, length is = length ext -> ext <> [] ->
  array_at sz ptr ext is = if insideb ext is then Some (array_nested sz ptr ext is) else None.
Proof.
  induction ext as [|e ext IH]; intros ptr is L E; [congruence|].
  destruct is as [|i is]; [discriminate|]. cbn in L.
  destruct ext as [|x ext]; destruct is as [|j is]; try discriminate.
  - cbn. now rewrite andb_true_r.
  - change (array_at sz ptr (e :: x :: ext) (i :: j :: is)) with
      (if i <? e then array_at sz (add64 ptr (mul64 (mul64 i (shape_total (x :: ext))) sz)) (x :: ext) (j :: is) else None).
    change (insideb (e :: x :: ext) (i :: j :: is)) with ((i <? e) && insideb (x :: ext) (j :: is)).
    destruct (i <? e); [|reflexivity]. cbn [andb]. rewrite IH; [reflexivity|lia|discriminate].
Qed.

Lemma iter_spec sz ext : forall ptr is, length is = length ext -> ext <> [] -> ptr < 2 ^ 64 ->
  array_iter sz ptr ext is = array_nested sz ptr ext is.
Proof.
  induction ext as [|e ext IH]; intros ptr is L E B; [congruence|].
  destruct is as [|i is]; [discriminate|]. cbn in L.
  destruct ext as [|x ext]; destruct is as [|j is]; try discriminate; [reflexivity|].
  change (array_iter sz ptr (e :: x :: ext) (i :: j :: is)) with
    (array_iter sz (add64 (row_begin sz ptr (x :: ext)) (mul64 i (row_stored sz (x :: ext)))) (x :: ext) (j :: is)).
  change (array_nested sz ptr (e :: x :: ext) (i :: j :: is)) with
    (array_nested sz (add64 ptr (mul64 (mul64 i (shape_total (x :: ext))) sz)) (x :: ext) (j :: is)).
  rewrite IH; [|lia|discriminate|apply w64_lt]. f_equal.
  unfold row_begin, row_stored, add64, mul64. 
  replace (w64 (w64 (0 * shape_total (x :: ext)) * sz)) with 0 by reflexivity. rewrite N.add_0_r, (w64_small ptr) by exact B.
  do 2 f_equal. now rewrite w64_mul_r, w64_mul_l, N.mul_assoc.
Qed.

Lemma strides_congr sz e ext : congr (array_strides sz (e :: ext) ++ [sz]) (esteps sz ext).
Proof.
  revert e. induction ext as [|x ext IH]; intros e; [repeat constructor|].
  change (array_strides sz (e :: x :: ext)) with (row_stored sz (x :: ext) :: array_strides sz (x :: ext)).
  cbn [esteps app]. constructor; [|apply IH].
  rewrite stored_volume. unfold row_stored, mul64. rewrite w64_w64, <- w64_mul_l, shape_total_volume by discriminate.
  apply w64_mul_l.
Qed.
Lemma strides_length sz e ext : length (array_strides sz (e :: ext)) = length ext.
Proof. revert e. induction ext as [|x ext IH]; intros e; [reflexivity|]. cbn [length]. now rewrite <- (IH x). Qed.

Lemma snd_combine {A B} (l : list A) (l' : list B) : length l = length l' -> map snd (combine l l') = l'.
Proof. revert l'. induction l; intros [|]; cbn; intros; try discriminate; [reflexivity|]. f_equal. apply IHl. lia. Qed.
Lemma fst_combine {A B} (l : list A) (l' : list B) : length l = length l' -> map fst (combine l l') = l.
Proof. revert l'. induction l; intros [|]; cbn; intros; try discriminate; [reflexivity|]. f_equal. apply IHl. lia. Qed.

Lemma view_spec sz ext ptr is : length is = length ext -> ext <> [] -> ptr < 2 ^ 64 ->
  nested Strided sz (array_view sz ptr ext) is = array_nested sz ptr ext is.
Proof.
  intros L E B. rewrite array_dot by assumption. destruct ext as [|e ext]; [congruence|].
  unfold array_view. cbn [hd tl].
  assert (C : length ext = length (array_strides sz (e :: ext))) by now rewrite strides_length.
  rewrite byte_view_dot by (rewrite combine_length, <- C, Nat.min_id; exact L).
  rewrite snd_combine by exact C. rewrite <- w64_add_r, (congr_dot _ _ (strides_congr sz e ext)), w64_add_r.
  now rewrite (dot_dense sz e) by exact L.
Qed.

(* every way leads to the same cell; at also tests *)
Lemma locate_spec sz p a is : 0 < sz -> placed sz a -> length is = length (shape a) ->
  (p <> At -> in_range (shape a) is) ->
  locate sz p a is = if insideb (shape a) is then Some (cell sz a (row_major (shape a) is)) else None.
Proof.
  intros Hz (E & P & B) L R.
  assert (Bp : base a < 2 ^ 64) by lia.
  assert (N : insideb (shape a) is = true -> array_nested sz (base a) (shape a) is = cell sz a (row_major (shape a) is)).
  { intros I. apply insideb_spec in I. unfold cell. apply array_access; [exact E|exact Hz|exact I|lia]. }
  assert (X : p <> At -> insideb (shape a) is = true) by (intros H; apply insideb_spec; auto).
  destruct p; cbn [locate].
  - rewrite X, N by (discriminate || now apply X). reflexivity.
  - rewrite at_spec by assumption. destruct (insideb (shape a) is); [now rewrite N|reflexivity].
  - rewrite iter_spec by assumption. rewrite X, N by (discriminate || now apply X). reflexivity.
  - rewrite view_spec by assumption. rewrite X, N by (discriminate || now apply X). reflexivity.
Qed.

Lemma plain_spec sz a k : 0 < sz -> placed sz a -> k < volume (shape a) -> plain_at sz a k = cell sz a k.
Proof. intros Hz (E & P & B) K. unfold plain_at, cell, add64, mul64. rewrite w64_add_r. apply w64_small. nia. Qed.

(* ---- traversals ---- *)

Lemma visit_spec sz ext : 0 < sz -> forall ptr, ext <> [] -> Forall (fun e => 0 < e) ext -> ptr + volume ext * sz < 2 ^ 64 ->
  array_visit sz ptr ext = Some (map (fun is => ptr + row_major ext is * sz) (all_indices ext)).
Proof.
  intros Hz. induction ext as [|e ext IH]; intros ptr E P B; [congruence|].
  inversion P as [|? ? Pe P']; subst.
  destruct ext as [|x ext].
  - cbn [array_visit]. cbn in B. rewrite walk_upto; [|exact Hz|lia|nia].
    f_equal. cbn. induction (upto e) as [|i l IHl]; [reflexivity|]. cbn. f_equal; [lia|exact IHl].
  - pose proof (volume_positive _ P') as V. set (r := x :: ext) in *.
    change (volume (e :: r)) with (e * volume r) in B.
    assert (T : shape_total r = volume r) by (apply shape_total_exact; [discriminate|exact P'|nia]).
    assert (RS : row_stored sz r = volume r * sz) by (unfold row_stored, mul64; rewrite T; apply w64_small; nia).
    assert (RB : row_begin sz ptr r = ptr).
    { unfold row_begin, add64, mul64. rewrite N.mul_0_l. cbn. rewrite N.add_0_r. apply w64_small. nia. }
    change (array_visit sz ptr (e :: r)) with
      (match walk (S (N.to_nat e)) (row_stored sz r) (row_begin sz ptr r)
               (add64 ptr (mul64 (mul64 e (shape_total r)) sz)) with
       | Some rows => opt_concat (map (fun p => array_visit sz p r) rows)
       | None => None end).
    rewrite RS, RB, T.
    replace (mul64 (mul64 e (volume r)) sz) with (mul64 e (volume r * sz))
      by (unfold mul64; rewrite w64_mul_l; f_equal; lia).
    rewrite walk_upto; [|nia|lia|nia].
    rewrite map_map.
    rewrite (opt_concat_some _ (fun i => map (fun is => ptr + i * (volume r * sz) + row_major r is * sz) (all_indices r))).
    + f_equal. change (all_indices (e :: r)) with (flat_map (fun i => map (cons i) (all_indices r)) (upto e)).
      rewrite map_flat_map. apply flat_map_ext'. intros i _. rewrite map_map. apply map_ext. intros is.
      change (row_major (e :: r) (i :: is)) with (i * volume r + row_major r is). lia.
    + intros i Hi. apply in_upto in Hi. apply IH; [discriminate|exact P'|nia].
Qed.

Lemma plain_visit_spec sz a : 0 < sz -> placed sz a ->
  array_plain_visit sz a = Some (map (cell sz a) (upto (volume (shape a)))).
Proof.
  intros Hz H. unfold array_plain_visit, plain_end. rewrite (placed_total sz a Hz H). destruct H as (E & P & B).
  rewrite walk_upto; [reflexivity|exact Hz|lia|exact B].
Qed.

(* ---- loops over memory ---- *)

Definition in_block (sz it : N) (n : nat) (x : N) : Prop := exists k, (k < n)%nat /\ x = it + N.of_nat k * sz.

Lemma fill_loop_spec {V} sz (v : V) : 0 < sz -> forall n fuel m it, (n < fuel)%nat -> it + N.of_nat n * sz < 2 ^ 64 ->
  exists m', fill_loop fuel sz m it (it + N.of_nat n * sz) v = Some m' /\
    (forall k, (k < n)%nat -> m' (it + N.of_nat k * sz) = v) /\
    (forall x, ~ in_block sz it n x -> m' x = m x).
Proof.
  intros Hz. induction n as [|n IH]; intros fuel m it F B; (destruct fuel as [|f]; [lia|]); cbn [fill_loop].
  - cbn. rewrite N.add_0_r, N.eqb_refl. exists m. split; [reflexivity|]. split; [lia|reflexivity].
  - destruct (N.eqb_spec it (it + N.of_nat (S n) * sz)) as [X|_]; [nia|].
    unfold add64. rewrite w64_small by nia.
    replace (it + N.of_nat (S n) * sz) with (it + sz + N.of_nat n * sz) by lia.
    destruct (IH f (put m it v) (it + sz)) as (m' & E & H1 & H2); [lia|nia|].
    exists m'. split; [exact E|]. split.
    + intros [|k] Hk.
      * rewrite H2.
        -- unfold put. replace (it + N.of_nat 0 * sz) with it by lia. now rewrite N.eqb_refl.
        -- intros (j & _ & Hj). nia.
      * replace (it + N.of_nat (S k) * sz) with (it + sz + N.of_nat k * sz) by lia. apply H1. lia.
    + intros x Hx. rewrite H2.
      * unfold put. destruct (N.eqb_spec x it) as [->|]; [|reflexivity].
        exfalso. apply Hx. exists 0%nat. split; [lia|cbn; lia].
      * intros (k & Hk & ->). apply Hx. exists (S k). split; [lia|lia].
Qed.

(* two blocks that are the same or apart *)
Definition aligned_blocks (sz p q : N) (n : nat) : Prop :=
  p = q \/ p + N.of_nat n * sz <= q \/ q + N.of_nat n * sz <= p.

Lemma swap_loop_spec {V} sz : 0 < sz -> forall n fuel (m : mem V) p q, (n < fuel)%nat ->
  p + N.of_nat n * sz < 2 ^ 64 -> q + N.of_nat n * sz < 2 ^ 64 -> aligned_blocks sz p q n ->
  exists m', swap_loop fuel sz m p q (p + N.of_nat n * sz) = Some m' /\
    (forall k, (k < n)%nat -> m' (p + N.of_nat k * sz) = m (q + N.of_nat k * sz) /\
                              m' (q + N.of_nat k * sz) = m (p + N.of_nat k * sz)) /\
    (forall x, ~ in_block sz p n x -> ~ in_block sz q n x -> m' x = m x).
Proof.
  intros Hz. induction n as [|n IH]; intros fuel m p q F Bp Bq A; (destruct fuel as [|f]; [lia|]); cbn [swap_loop].
  - cbn. rewrite N.add_0_r, N.eqb_refl. exists m. split; [reflexivity|]. split; [lia|reflexivity].
  - destruct (N.eqb_spec p (p + N.of_nat (S n) * sz)) as [X|_]; [nia|].
    unfold add64. rewrite !w64_small by nia.
    replace (p + N.of_nat (S n) * sz) with (p + sz + N.of_nat n * sz) by lia.
    destruct (IH f (iter_swap m p q) (p + sz) (q + sz)) as (m' & E & H1 & H2); [lia|nia|nia| |].
    { unfold aligned_blocks in *. destruct A as [->|[A|A]]; [now left|right; left; lia|right; right; lia]. }
    assert (Np : forall k, (k < n)%nat -> p + sz + N.of_nat k * sz <> p /\ q + sz + N.of_nat k * sz <> q /\
                                          p + sz + N.of_nat k * sz <> q /\ q + sz + N.of_nat k * sz <> p).
    { intros k Hk. destruct A as [->|[A|A]]; repeat split; nia. }
    assert (S1 : forall x, x <> p -> x <> q -> iter_swap m p q x = m x).
    { intros x Xp Xq. unfold iter_swap, put. apply N.eqb_neq in Xp, Xq. now rewrite Xp, Xq. }
    exists m'. split; [exact E|]. split.
    + intros [|k] Hk.
      * replace (p + N.of_nat 0 * sz) with p by lia. replace (q + N.of_nat 0 * sz) with q by lia.
        rewrite !H2.
        -- unfold iter_swap, put. rewrite !N.eqb_refl. split; [|reflexivity].
           destruct (N.eqb_spec p q) as [->|]; reflexivity.
        -- intros (j & Hj & X). destruct (Np j Hj) as (? & ? & ? & ?). lia.
        -- intros (j & Hj & X). destruct (Np j Hj) as (? & ? & ? & ?). lia.
        -- intros (j & Hj & X). destruct (Np j Hj) as (? & ? & ? & ?). lia.
        -- intros (j & Hj & X). destruct (Np j Hj) as (? & ? & ? & ?). lia.
      * replace (p + N.of_nat (S k) * sz) with (p + sz + N.of_nat k * sz) by lia.
        replace (q + N.of_nat (S k) * sz) with (q + sz + N.of_nat k * sz) by lia.
        assert (Hk' : (k < n)%nat) by lia. destruct (Np k Hk') as (? & ? & ? & ?).
        destruct (H1 k Hk') as [-> ->]. now rewrite !S1.
    + intros x Xp Xq. rewrite H2.
      * apply S1; intros ->; [apply Xp|apply Xq]; exists 0%nat; (split; [lia|cbn; lia]).
      * intros (k & Hk & ->). apply Xp. exists (S k). split; lia.
      * intros (k & Hk & ->). apply Xq. exists (S k). split; lia.
Qed.

Lemma assign_loop_spec {V} sz : 0 < sz -> forall n (m : mem V) d s,
  d + N.of_nat n * sz < 2 ^ 64 -> s + N.of_nat n * sz < 2 ^ 64 -> aligned_blocks sz d s n ->
  (forall k, (k < n)%nat -> assign_loop n sz m d s (d + N.of_nat k * sz) = m (s + N.of_nat k * sz)) /\
  (forall x, ~ in_block sz d n x -> assign_loop n sz m d s x = m x).
Proof.
  intros Hz. induction n as [|n IH]; intros m d s Bd Bs A; cbn [assign_loop].
  - split; [lia|reflexivity].
  - unfold add64. rewrite !w64_small by nia.
    destruct (IH (put m d (m s)) (d + sz) (s + sz)) as (H1 & H2); [nia|nia| |].
    { unfold aligned_blocks in *. destruct A as [->|[A|A]]; [now left|right; left; lia|right; right; lia]. }
    split.
    + intros [|k] Hk.
      * replace (d + N.of_nat 0 * sz) with d by lia. replace (s + N.of_nat 0 * sz) with s by lia.
        rewrite H2; [unfold put; now rewrite N.eqb_refl|]. intros (j & Hj & X). nia.
      * replace (d + N.of_nat (S k) * sz) with (d + sz + N.of_nat k * sz) by lia.
        rewrite H1 by lia. replace (s + N.of_nat (S k) * sz) with (s + sz + N.of_nat k * sz) by lia.
        unfold put. destruct (N.eqb_spec (s + sz + N.of_nat k * sz) d) as [X|]; [|reflexivity].
        destruct A as [->|[A|A]]; nia.
    + intros x Hx. rewrite H2.
      * unfold put. destruct (N.eqb_spec x d) as [->|]; [|reflexivity]. exfalso. apply Hx. exists 0%nat. split; [lia|cbn; lia].
      * intros (k & Hk & ->). apply Hx. exists (S k). split; lia.
Qed.
