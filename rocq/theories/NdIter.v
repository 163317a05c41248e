(* Arithmetic of iterator_nd. *)
From Coq Require Import List Bool NArith ZArith Lia Arith.
From Verif Require Import NdModel NdSpec NdProofs.
Import ListNotations.
Local Open Scope N_scope.
Set Default Proof Using "Type".

Lemma of_w64 a : Z.of_N (w64 a) = (Z.of_N a mod 2 ^ 64)%Z.
Proof. unfold w64. rewrite N2Z.inj_mod. reflexivity. Qed.
Lemma of_to_u64 z : Z.of_N (to_u64 z) = (z mod 2 ^ 64)%Z.
Proof. unfold to_u64. apply Z2N.id, Z.mod_pos_bound. reflexivity. Qed.
Lemma to_i64_mod n : n < 2 ^ 64 -> (to_i64 n mod 2 ^ 64 = Z.of_N n mod 2 ^ 64)%Z.
Proof.
  intros H. unfold to_i64. destruct (n <? 2 ^ 63); [reflexivity|].
  rewrite <- (Z_mod_plus_full (Z.of_N n - 2 ^ 64) 1 (2 ^ 64)). f_equal. lia.
Qed.
Lemma zmod_add_l a b : ((a mod 2 ^ 64 + b) mod 2 ^ 64 = (a + b) mod 2 ^ 64)%Z.
Proof. apply Z.add_mod_idemp_l. discriminate. Qed.
Lemma zmod_add_r a b : ((a + b mod 2 ^ 64) mod 2 ^ 64 = (a + b) mod 2 ^ 64)%Z.
Proof. apply Z.add_mod_idemp_r. discriminate. Qed.
Lemma zmod_mul_l a b : ((a mod 2 ^ 64 * b) mod 2 ^ 64 = (a * b) mod 2 ^ 64)%Z.
Proof. apply Z.mul_mod_idemp_l. discriminate. Qed.
Lemma zmod_mul_r a b : ((a * (b mod 2 ^ 64)) mod 2 ^ 64 = (a * b) mod 2 ^ 64)%Z.
Proof. apply Z.mul_mod_idemp_r. discriminate. Qed.

(* the address after moving n positions, as an integer *)
Lemma it_add_ptr k sz p n :
  Z.of_N (p_ptr (it_add k sz p n)) = ((Z.of_N (p_ptr p) + n * Z.of_N (total_stored k sz p)) mod 2 ^ 64)%Z.
Proof.
  unfold it_add, add64, mul64. cbn [p_ptr]. rewrite of_w64, N2Z.inj_add, of_w64, N2Z.inj_mul, of_to_u64.
  now rewrite zmod_mul_l, zmod_add_r.
Qed.

Lemma it_add_descs k sz p n : p_descs (it_add k sz p n) = p_descs p.
Proof. reflexivity. Qed.

Lemma proxy_eq p q : p_descs p = p_descs q -> Z.of_N (p_ptr p) = Z.of_N (p_ptr q) -> p = q.
Proof. destruct p, q. cbn. intros -> H. apply N2Z.inj in H. congruence. Qed.

Lemma total_stored_add k sz p n : total_stored k sz (it_add k sz p n) = total_stored k sz p.
Proof. reflexivity. Qed.

Lemma it_add_add k sz p n m : it_add k sz (it_add k sz p n) m = it_add k sz p (n + m).
Proof.
  apply proxy_eq; [reflexivity|]. rewrite !it_add_ptr, total_stored_add, zmod_add_l. f_equal. lia.
Qed.

Lemma it_add_zero k sz p : p_ptr p < 2 ^ 64 -> it_add k sz p 0 = p.
Proof.
  intros H. apply proxy_eq; [reflexivity|]. rewrite it_add_ptr, Z.mul_0_l, Z.add_0_r. apply Z.mod_small. lia.
Qed.

Lemma it_sub_add k sz p n : total_stored k sz p < 2 ^ 64 -> it_sub k sz p n = it_add k sz p (- n).
Proof.
  intros H. apply proxy_eq; [reflexivity|]. rewrite it_add_ptr.
  unfold it_sub, add64. cbn [p_ptr]. rewrite of_w64, N2Z.inj_add, of_to_u64, zmod_add_r.
  rewrite <- zmod_add_r, <- zmod_mul_r, to_i64_mod, zmod_mul_r, zmod_add_r by exact H. reflexivity.
Qed.

Lemma it_next_add k sz p : it_next k sz p = it_add k sz p 1.
Proof.
  apply proxy_eq; [reflexivity|]. rewrite it_add_ptr. unfold it_next, add64. cbn [p_ptr].
  rewrite of_w64, N2Z.inj_add. f_equal. lia.
Qed.

Lemma it_prev_add k sz p : total_stored k sz p < 2 ^ 64 -> it_prev k sz p = it_add k sz p (-1).
Proof.
  intros H. change (-1)%Z with (- (1))%Z. rewrite <- (it_sub_add k sz p 1 H). reflexivity.
Qed.

Lemma sub_view_add k sz c d0 d1 ds i n : p_descs c = d0 :: d1 :: ds -> (0 <= Z.of_N i + n)%Z ->
  it_add k sz (sub_view k sz c i) n = sub_view k sz c (Z.to_N (Z.of_N i + n)).
Proof.
  intros E H. unfold sub_view at 2. rewrite E.
  apply proxy_eq; [unfold sub_view; now rewrite E|].
  rewrite it_add_ptr. unfold sub_view. rewrite E. cbn [p_ptr].
  unfold total_stored, top. cbn [p_descs hd].
  unfold add64, mul64. rewrite !of_w64, !N2Z.inj_add, !of_w64, !N2Z.inj_mul, Z2N.id by exact H.
  rewrite zmod_add_l, zmod_add_r. set (a := Z.of_N (p_ptr c)). set (b := Z.of_N (bytes k sz d1)). clearbody a b.
  replace (a + (Z.of_N i * b) mod 2 ^ 64 + n * b)%Z with (a + n * b + (Z.of_N i * b) mod 2 ^ 64)%Z by lia.
  rewrite zmod_add_r. f_equal. lia.
Qed.

Lemma it_add_exact k sz p n : (0 <= n)%Z -> p_ptr p + Z.to_N n * total_stored k sz p < 2 ^ 64 ->
  p_ptr (it_add k sz p n) = p_ptr p + Z.to_N n * total_stored k sz p.
Proof.
  intros Hn B. apply N2Z.inj. rewrite it_add_ptr, N2Z.inj_add, N2Z.inj_mul, Z2N.id by exact Hn.
  apply Z.mod_small. split; [nia|]. rewrite <- (Z2N.id n) by exact Hn. lia.
Qed.

Lemma it_diff_forward k sz p n : total_stored k sz p <> 0 -> (0 <= n < 2 ^ 63)%Z ->
  p_ptr p + Z.to_N n * total_stored k sz p < 2 ^ 64 ->
  it_diff k sz (it_add k sz p n) p = Some n.
Proof.
  intros Hs Hn B. unfold it_diff. rewrite total_stored_add.
  destruct (N.eqb_spec (total_stored k sz p) 0) as [|_]; [congruence|]. f_equal.
  rewrite it_add_exact by (lia || exact B).
  set (s := total_stored k sz p) in *. clearbody s. set (a := p_ptr p) in *. clearbody a.
  assert (E : w64 (a + Z.to_N n * s + (2 ^ 64 - a)) = Z.to_N n * s).
  { replace (a + Z.to_N n * s + (2 ^ 64 - a)) with (Z.to_N n * s + 1 * 2 ^ 64) by lia.
    unfold w64. rewrite N.mod_add by discriminate. apply N.mod_small. lia. }
  rewrite E, N.div_mul by exact Hs. unfold to_i64.
  destruct (N.ltb_spec (Z.to_N n) (2 ^ 63)) as [H|H]; lia.
Qed.

(* the difference the other way round *)
Lemma it_diff_backward k sz p n : 2 <= total_stored k sz p -> (0 < n)%Z ->
  p_ptr p + Z.to_N n * total_stored k sz p < 2 ^ 64 ->
  it_diff k sz p (it_add k sz p n) = Some (Z.of_N (2 ^ 64 / total_stored k sz p) - n)%Z.
Proof.
  intros Hs Hn B. unfold it_diff.
  destruct (N.eqb_spec (total_stored k sz p) 0) as [|_]; [lia|]. f_equal.
  rewrite it_add_exact by (lia || exact B).
  set (s := total_stored k sz p) in *. clearbody s. set (a := p_ptr p) in *. clearbody a.
  assert (E : w64 (a + (2 ^ 64 - (a + Z.to_N n * s))) = 2 ^ 64 - Z.to_N n * s).
  { rewrite w64_small; nia. }
  rewrite E.
  assert (D : (2 ^ 64 - Z.to_N n * s) / s = 2 ^ 64 / s - Z.to_N n).
  { assert (Q : 2 ^ 64 = (2 ^ 64 - Z.to_N n * s) + Z.to_N n * s) by lia.
    rewrite Q at 2. rewrite N.div_add by lia. now rewrite N.add_sub. }
  rewrite D.
  assert (U : 2 ^ 64 / s <= 2 ^ 63).
  { change (2 ^ 63) with (2 ^ 64 / 2). apply N.div_le_compat_l. lia. }
  assert (Ln : Z.to_N n <= 2 ^ 64 / s).
  { apply N.div_le_lower_bound; [lia|]. lia. }
  unfold to_i64. destruct (N.ltb_spec (2 ^ 64 / s - Z.to_N n) (2 ^ 63)); lia.
Qed.

Lemma it_order k sz c d0 d1 ds i j : p_descs c = d0 :: d1 :: ds -> 0 < bytes k sz d1 ->
  i <= d_size d0 -> j <= d_size d0 -> p_ptr c + d_size d0 * bytes k sz d1 < 2 ^ 64 ->
  (it_lt (sub_view k sz c i) (sub_view k sz c j) = true <-> i < j) /\
  (it_eq (sub_view k sz c i) (sub_view k sz c j) = true <-> i = j).
Proof.
  intros E Hb Hi Hj B. unfold it_lt, it_eq, sub_view. rewrite E. cbn [p_ptr].
  unfold add64, mul64. rewrite !w64_add_r, !w64_small by nia.
  rewrite N.ltb_lt, N.eqb_eq. split; split; nia.
Qed.
