(* Access, traversal and continuity of the containers and views. *)
From Coq Require Import List Bool NArith ZArith Lia Arith.
From Verif Require Import NdModel NdSpec NdProofs.
Import ListNotations.
Local Open Scope N_scope.
Set Default Proof Using "Type".

Lemma plain_tl e ext : tl (plain_descs (e :: ext)) = plain_descs ext.
Proof. cbn [plain_descs]. now destruct (plain_descs ext). Qed.
Lemma plain_length ext : length (plain_descs ext) = length ext.
Proof. rewrite <- (map_length d_size). now rewrite (proj1 (plain_descs_facts ext)). Qed.

Lemma dot_le_block e ext ss sz is : Forall2 N.le ext ss -> in_range (e :: ext) is ->
  dot is (esteps sz ss) + sz <= e * stored sz ss.
Proof.
  intros L R. pose proof (dot_inside _ _ _ (esteps_ok sz e ext ss L) R) as D.
  rewrite esteps_last, esteps_hd in D. exact D.
Qed.

Lemma le_refl_list (l : list N) : Forall2 N.le l l.
Proof. induction l; constructor; [lia|assumption]. Qed.

(* vectors *)
Lemma vector_dot sz ptr e ext is : length is = S (length ext) ->
  nested Plain sz (vector_proxy ptr (e :: ext)) is = w64 (ptr + row_major (e :: ext) is * sz).
Proof.
  intros L. rewrite nested_dot.
  - unfold vector_proxy. cbn [p_descs p_ptr]. unfold steps. rewrite plain_tl.
    rewrite <- w64_add_r, (congr_dot _ _ (plain_steps sz ext)), w64_add_r.
    now rewrite (dot_dense sz e ext).
  - cbn [vector_proxy p_descs]. now rewrite plain_length.
  - now destruct is.
Qed.

Lemma row_major_lt ext is : in_range ext is -> row_major ext is < volume ext.
Proof.
  intros R. assert (H : In (row_major ext is) (map (row_major ext) (all_indices ext))).
  { apply in_map. now apply all_indices_range. }
  rewrite row_major_all in H. now apply in_upto.
Qed.

Lemma vector_access sz ptr ext is : ext <> [] -> 0 < sz -> in_range ext is -> ptr + volume ext * sz <= 2 ^ 64 ->
  nested Plain sz (vector_proxy ptr ext) is = ptr + row_major ext is * sz.
Proof.
  intros E Hz R B. destruct ext as [|e ext]; [congruence|].
  pose proof (row_major_lt _ _ R). apply in_range_length in R.
  rewrite vector_dot; [|cbn in R; lia]. apply w64_small. nia.
Qed.

Lemma row_major_lex ext : forall is js, in_range ext is -> in_range ext js ->
  (lex is js <-> row_major ext is < row_major ext js).
Proof.
  assert (H : forall is js, in_range ext is -> in_range ext js -> lex is js -> row_major ext is < row_major ext js).
  { destruct ext as [|e ext]; intros is js R R' X.
    - inversion R; subst. inversion X.
    - pose proof (dot_spaced _ _ _ _ (esteps_ok 1 e ext ext (le_refl_list ext)) R R' X) as D.
      rewrite esteps_last in D. apply in_range_length in R, R'. cbn in R, R'.
      rewrite !(dot_dense 1 e ext) in D by lia. lia. }
  intros is js R R'. split; [now apply H|]. intros L.
  destruct (lex_total is js) as [->|[X|X]]; [|lia|exact X|].
  - apply in_range_length in R, R'. congruence.
  - specialize (H _ _ R' R X). lia.
Qed.

Lemma row_major_inj ext is js : in_range ext is -> in_range ext js -> row_major ext is = row_major ext js -> is = js.
Proof.
  intros R R' E. destruct (lex_total is js) as [H|[X|X]].
  - apply in_range_length in R, R'. congruence.
  - exact H.
  - apply (row_major_lex ext) in X; [lia|assumption|assumption].
  - apply (row_major_lex ext) in X; [lia|assumption|assumption].
Qed.

Lemma row_major_onto ext a : a < volume ext -> exists is, in_range ext is /\ row_major ext is = a.
Proof.
  intros H. apply in_upto in H. rewrite <- row_major_all in H. apply in_map_iff in H.
  destruct H as (is & E & Hi). exists is. split; [now apply all_indices_range|exact E].
Qed.

(* array_nd *)
Lemma shape_total_volume ext : ext <> [] -> w64 (shape_total ext) = w64 (volume ext).
Proof.
  induction ext as [|e ext IH]; intros E; [congruence|].
  destruct ext as [|x ext]; [cbn; now rewrite N.mul_1_r|].
  change (shape_total (e :: x :: ext)) with (mul64 e (shape_total (x :: ext))).
  unfold mul64. rewrite w64_w64, <- w64_mul_r, IH by discriminate. apply w64_mul_r.
Qed.

Lemma array_dot sz ext : forall ptr is, length is = length ext -> ext <> [] -> ptr < 2 ^ 64 ->
  array_nested sz ptr ext is = w64 (ptr + row_major ext is * sz).
Proof.
  induction ext as [|e ext IH]; intros ptr is L E B; [congruence|].
  destruct is as [|i is]; [discriminate|]. cbn in L.
  destruct is as [|j is].
  - destruct ext; [|discriminate]. cbn. unfold add64, mul64. rewrite w64_add_r. f_equal. lia.
  - destruct ext as [|x ext]; [discriminate|].
    change (array_nested sz ptr (e :: x :: ext) (i :: j :: is)) with
      (array_nested sz (add64 ptr (mul64 (mul64 i (shape_total (x :: ext))) sz)) (x :: ext) (j :: is)).
    rewrite IH; [|lia|discriminate|apply w64_lt].
    change (row_major (e :: x :: ext) (i :: j :: is)) with (i * volume (x :: ext) + row_major (x :: ext) (j :: is)).
    unfold add64, mul64. rewrite w64_add_l, w64_mul_l.
    set (r := row_major (x :: ext) (j :: is)). clearbody r.
    assert (Q : w64 (i * shape_total (x :: ext) * sz) = w64 (i * volume (x :: ext) * sz)).
    { rewrite <- w64_mul_l, <- (w64_mul_r i), shape_total_volume by discriminate. now rewrite w64_mul_r, w64_mul_l. }
    rewrite Q, <- w64_add_l, w64_add_r, w64_add_l. f_equal. lia.
Qed.

Lemma array_access sz ptr ext is : ext <> [] -> 0 < sz -> in_range ext is -> ptr + volume ext * sz <= 2 ^ 64 ->
  array_nested sz ptr ext is = ptr + row_major ext is * sz.
Proof.
  intros E Hz R B. pose proof (row_major_lt _ _ R).
  rewrite array_dot; [|symmetry; now apply in_range_length|exact E|nia]. apply w64_small. nia.
Qed.

(* views with element strides *)
Lemma elem_view_sizes sz ptr e es : map d_size (p_descs (elem_view sz ptr e es)) = e :: map fst es.
Proof.
  unfold elem_view. cbn [p_descs]. rewrite (proj1 (top_desc_facts _ _ _)).
  now rewrite (proj1 (elem_descs_facts sz es)).
Qed.

Lemma elem_view_dot sz ptr e es is : length is = S (length es) ->
  nested Strided sz (elem_view sz ptr e es) is = w64 (ptr + dot is (esteps sz (map snd es))).
Proof.
  intros L. rewrite nested_dot.
  - unfold elem_view. cbn [p_descs p_ptr]. unfold steps. rewrite (proj2 (top_desc_facts _ _ _)).
    rewrite <- w64_add_r, (congr_dot _ _ (elem_steps sz es)). apply w64_add_r.
  - rewrite <- (map_length d_size), elem_view_sizes. cbn. now rewrite map_length.
  - now destruct is.
Qed.

Lemma Forall2_map_pairs {A} (R : A -> A -> Prop) (l : list (A * A)) :
  Forall (fun p => R (fst p) (snd p)) l -> Forall2 R (map fst l) (map snd l).
Proof. intros H. induction H; cbn; constructor; assumption. Qed.

Lemma elem_view_access sz ptr e es is : 0 < sz -> Forall (fun p => fst p <= snd p) es ->
  in_range (e :: map fst es) is -> ptr + e * stored sz (map snd es) <= 2 ^ 64 ->
  nested Strided sz (elem_view sz ptr e es) is = ptr + dot is (esteps sz (map snd es)).
Proof.
  intros Hz S R B. pose proof (dot_le_block e _ _ sz is (Forall2_map_pairs _ _ S) R).
  apply in_range_length in R. cbn in R. rewrite map_length in R.
  rewrite elem_view_dot by lia. apply w64_small. lia.
Qed.

Lemma elem_view_stored sz ptr e es : e * stored sz (map snd es) < 2 ^ 64 ->
  total_stored Strided sz (elem_view sz ptr e es) = e * stored sz (map snd es).
Proof.
  intros B. unfold total_stored, top, elem_view. cbn [p_descs].
  pose proof (elem_descs_facts sz es) as [_ F].
  destruct (elem_descs sz es) as [|d ds].
  - subst es. cbn in *. unfold mul64. now apply w64_small.
  - destruct F as (_ & _ & F). cbn [top_desc hd bytes offset_to_bytes d_offset].
    unfold bytes, offset_to_bytes. cbn [d_offset].
    unfold mul64. rewrite F, w64_mul_r. now apply w64_small.
Qed.

Lemma elem_view_total sz ptr e es : w64 (total_size (elem_view sz ptr e es)) = w64 (volume (e :: map fst es)).
Proof.
  unfold total_size, top, elem_view. cbn [p_descs].
  pose proof (elem_descs_facts sz es) as [_ F].
  destruct (elem_descs sz es) as [|d ds].
  - subst es. cbn. now rewrite N.mul_1_r.
  - destruct F as (_ & F & _). cbn [top_desc hd d_total]. unfold mul64.
    rewrite w64_w64, <- w64_mul_r, F. apply w64_mul_r.
Qed.

Lemma elem_view_steps sz e es : 0 < sz -> 0 < e -> Forall (fun p => fst p <= snd p) es ->
  Forall (fun x => 0 < x) (map fst es) -> e * stored sz (map snd es) < 2 ^ 64 ->
  steps Strided sz (top_desc sz e (elem_descs sz es)) = esteps sz (map snd es).
Proof.
  intros Hz He S P B. unfold steps. rewrite (proj2 (top_desc_facts _ _ _)).
  apply elem_steps_exact; [exact Hz| |nia].
  clear - S P. induction S as [|[x s] l H S IH]; cbn in *; [constructor|].
  inversion P; subst. constructor; [lia|auto].
Qed.

Lemma stored_pos_of sz es : 0 < sz -> Forall (fun p => fst p <= snd p) es ->
  Forall (fun x => 0 < x) (map fst es) -> 0 < stored sz (map snd es).
Proof.
  intros Hz S P. induction S as [|[x s] l H S IH]; cbn in *; [exact Hz|].
  inversion P; subst. specialize (IH H3). nia.
Qed.

Lemma positive_or_zero (l : list N) : Forall (fun x => 0 < x) l \/ In 0 l.
Proof.
  induction l as [|x l [IH|IH]]; [left; constructor| |right; now right].
  destruct (N.eq_dec x 0) as [->|]; [right; now left|left; constructor; [lia|exact IH]].
Qed.

Lemma volume_zero l : In 0 l -> volume l = 0.
Proof. induction l as [|x l IH]; intros H; [easy|]. destruct H as [->|H]; cbn [volume]; [reflexivity|]. rewrite IH by exact H. apply N.mul_0_r. Qed.
Lemma volume_pos l : Forall (fun x => 0 < x) l -> 0 < volume l.
Proof. intros H. induction H; cbn [volume]; nia. Qed.

Lemma elem_view_traverse sz fuel ptr e es : 0 < sz -> Forall (fun p => fst p <= snd p) es ->
  Forall (fun x => (N.to_nat x < fuel)%nat) (e :: map fst es) -> ptr < 2 ^ 64 ->
  (0 < volume (e :: map fst es) -> ptr + e * stored sz (map snd es) < 2 ^ 64) ->
  traverse Strided sz fuel ptr (p_descs (elem_view sz ptr e es)) =
  Some (map (nested Strided sz (elem_view sz ptr e es)) (all_indices (e :: map fst es))).
Proof.
  intros Hz S F B0 B. pose proof (elem_view_sizes sz ptr e es) as Sz.
  destruct (positive_or_zero (e :: map fst es)) as [P|Z].
  - specialize (B (volume_pos _ P)). inversion P as [|? ? Pe P']; subst.
    rewrite traverse_dot; rewrite ?Sz; try assumption.
    + f_equal. apply map_ext_in. intros is Hi. apply all_indices_range in Hi.
      rewrite elem_view_access; [|exact Hz|exact S|exact Hi|lia].
      unfold elem_view. cbn [p_descs]. rewrite elem_view_steps; try assumption; [reflexivity|]. lia.
    + intros E. rewrite E in Sz. discriminate.
    + unfold elem_view. cbn [p_descs]. rewrite elem_view_steps; try assumption; [|lia].
      apply esteps_ok. now apply Forall2_map_pairs.
    + unfold elem_view. cbn [p_descs]. rewrite elem_view_steps; try assumption; [|lia].
      rewrite esteps_hd. exact B.
  - rewrite traverse_zero; [|now rewrite Sz|exact B0|now rewrite Sz].
    assert (E : all_indices (e :: map fst es) = []).
    { destruct (all_indices (e :: map fst es)) as [|is l] eqn:E; [reflexivity|].
      assert (H : In is (all_indices (e :: map fst es))) by (rewrite E; now left).
      apply all_indices_range, positive_range in H. eapply Forall_forall in H; [|exact Z]. lia. }
    now rewrite E.
Qed.

Lemma walk_empty fuel step b : b < 2 ^ 64 -> (0 < fuel)%nat -> walk fuel step b (add64 b (mul64 0 step)) = Some [].
Proof.
  intros B F. unfold add64, mul64. cbn [N.mul]. change (w64 0) with 0. rewrite N.add_0_r, w64_small by exact B.
  destruct fuel; [lia|]. cbn. now rewrite N.eqb_refl.
Qed.

Lemma elem_view_continuous sz fuel ptr e es : 0 < sz -> Forall (fun p => fst p <= snd p) es ->
  Forall (fun x => (N.to_nat x < fuel)%nat) (e :: map fst es) -> ptr < 2 ^ 64 ->
  (N.to_nat (volume (e :: map fst es)) < fuel)%nat ->
  (0 < volume (e :: map fst es) -> ptr + e * stored sz (map snd es) < 2 ^ 64) ->
  view_continuous sz (elem_view sz ptr e es) = true ->
  plain_walk sz fuel (elem_view sz ptr e es) = traverse Strided sz fuel ptr (p_descs (elem_view sz ptr e es)).
Proof.
  intros Hz S F B0 Fv B C. pose proof (elem_view_sizes sz ptr e es) as Sz.
  unfold plain_walk.
  assert (T : mul64 (total_size (elem_view sz ptr e es)) sz = mul64 (volume (e :: map fst es)) sz).
  { unfold mul64. now rewrite <- w64_mul_l, elem_view_total, w64_mul_l. }
  rewrite T. change (p_ptr (elem_view sz ptr e es)) with ptr.
  destruct (positive_or_zero (e :: map fst es)) as [P|Z].
  - specialize (B (volume_pos _ P)). inversion P as [|? ? Pe P']; subst.
    pose proof (volume_le_stored sz _ _ (Forall2_map_pairs _ _ S)) as V.
    symmetry. rewrite continuous_traversal; rewrite ?Sz; try assumption; [reflexivity| | | |].
    + intros E. rewrite E in Sz. discriminate.
    + unfold elem_view. cbn [p_descs]. rewrite elem_view_steps; try assumption; [|lia].
      apply esteps_ok. now apply Forall2_map_pairs.
    + unfold elem_view. cbn [p_descs]. rewrite elem_view_steps; try assumption; [|lia].
      rewrite esteps_hd. exact B.
    + unfold elem_view. cbn [p_descs]. rewrite elem_view_steps; try assumption; [|lia].
      rewrite esteps_hd. cbn [hd].
      unfold view_continuous in C. rewrite T in C. apply N.eqb_eq in C.
      change (d_offset (top (elem_view sz ptr e es))) with (total_stored Strided sz (elem_view sz ptr e es)) in C.
      rewrite elem_view_stored in C by lia. unfold mul64 in C. rewrite w64_small in C; [exact C|].
      cbn [volume]. nia.
  - rewrite traverse_zero; [|now rewrite Sz|exact B0|now rewrite Sz].
    rewrite (volume_zero _ Z). apply walk_empty; [exact B0|lia].
Qed.

(* proxies of the lower dimensions of such a view *)
Lemma elem_proxy_traverse sz fuel ptr e s es :
  traverse Strided sz fuel ptr (elem_descs sz ((e, s) :: es)) =
  traverse Strided sz fuel ptr (p_descs (elem_view sz ptr e es)).
Proof.
  unfold elem_view. cbn [p_descs elem_descs]. destruct (elem_descs sz es) as [|d ds]; reflexivity.
Qed.

Lemma elem_proxy_nested sz ptr e s es is : length is = S (length es) ->
  nested Strided sz (Proxy ptr (elem_descs sz ((e, s) :: es))) is = nested Strided sz (elem_view sz ptr e es) is.
Proof.
  intros L. rewrite !nested_dot; try (now destruct is).
  - f_equal. f_equal. f_equal. unfold elem_view. cbn [p_descs elem_descs]. now destruct (elem_descs sz es).
  - rewrite <- (map_length d_size), elem_view_sizes. cbn. now rewrite map_length.
  - cbn [p_descs]. rewrite <- (map_length d_size), (proj1 (elem_descs_facts sz _)). cbn. now rewrite map_length.
Qed.

Lemma elem_proxy_continuous sz fuel ptr e s es : 0 < sz -> Forall (fun p => fst p <= snd p) es ->
  Forall (fun x => (N.to_nat x < fuel)%nat) (e :: map fst es) -> ptr < 2 ^ 64 ->
  (N.to_nat (volume (e :: map fst es)) < fuel)%nat ->
  (0 < volume (e :: map fst es) -> ptr + e * stored sz (map snd es) < 2 ^ 64) ->
  proxy_continuous Strided sz (Proxy ptr (elem_descs sz ((e, s) :: es))) = true ->
  plain_walk sz fuel (Proxy ptr (elem_descs sz ((e, s) :: es))) =
  traverse Strided sz fuel ptr (elem_descs sz ((e, s) :: es)).
Proof.
  intros Hz S F B0 Fv B C. rewrite elem_proxy_traverse.
  assert (T : forall q, mul64 (total_size (Proxy q (elem_descs sz ((e, s) :: es)))) sz = mul64 (volume (e :: map fst es)) sz).
  { intros q. unfold mul64, total_size, top. cbn [p_descs].
    pose proof (elem_descs_facts sz ((e, s) :: es)) as [_ G].
    destruct (elem_descs sz ((e, s) :: es)) as [|d ds]; [discriminate|]. destruct G as (_ & G & _).
    cbn [hd]. rewrite <- w64_mul_l, G. apply w64_mul_l. }
  unfold plain_walk. rewrite T. cbn [p_ptr].
  destruct (positive_or_zero (e :: map fst es)) as [P|Z].
  - rewrite <- (elem_view_continuous sz fuel ptr e es Hz S F B0 Fv B).
    + unfold plain_walk. cbn [elem_view p_ptr]. do 2 f_equal.
      unfold mul64. rewrite <- (w64_mul_l (total_size _)), elem_view_total. now rewrite w64_mul_l.
    + specialize (B (volume_pos _ P)). inversion P as [|? ? Pe P']; subst.
      pose proof (volume_le_stored sz _ _ (Forall2_map_pairs _ _ S)) as V.
      unfold view_continuous. apply N.eqb_eq.
      change (d_offset (top (elem_view sz ptr e es))) with (total_stored Strided sz (elem_view sz ptr e es)).
      rewrite elem_view_stored by lia.
      unfold mul64. rewrite <- w64_mul_l, elem_view_total, w64_mul_l. cbn [volume].
      assert (E : stored sz (map snd es) = volume (map fst es) * sz).
      { unfold proxy_continuous in C. cbn [p_descs elem_descs] in C.
        pose proof (elem_descs_facts sz es) as [_ G]. destruct (elem_descs sz es) as [|d ds].
        - subst es. cbn [map stored volume]. lia.
        - destruct G as (_ & G & O). apply N.eqb_eq in C. unfold bytes, offset_to_bytes in C.
          rewrite O in C. unfold mul64 in C. rewrite <- w64_mul_l, G, w64_mul_l in C.
          rewrite !w64_small in C by nia. exact C. }
      rewrite E in *. rewrite w64_small; lia.
  - rewrite traverse_zero; [|now rewrite elem_view_sizes|exact B0|now rewrite elem_view_sizes].
    rewrite (volume_zero _ Z). apply walk_empty; [exact B0|lia].
Qed.

(* vectors: nothing wraps *)
Lemma plain_steps_exact sz ext : 0 < sz -> Forall (fun x => 0 < x) ext -> volume ext * sz < 2 ^ 64 ->
  map (bytes Plain sz) (plain_descs ext) ++ [sz] = esteps sz ext.
Proof.
  intros Hz P. induction P as [|e ext Pe P IH]; intros B; [reflexivity|].
  cbn [volume] in B. pose proof (volume_pos _ P) as Pv.
  specialize (IH ltac:(nia)). pose proof (plain_descs_facts ext) as [_ F].
  cbn [plain_descs]. destruct (plain_descs ext) as [|d ds] eqn:E.
  - subst ext. refine (f_equal2 cons _ IH). unfold bytes, offset_to_bytes, mul64. cbn [d_offset].
    cbn [volume] in B. cbn [stored]. rewrite w64_small; [reflexivity|lia].
  - destruct F as (_ & F & _). refine (f_equal2 cons _ IH). unfold bytes, offset_to_bytes, mul64. cbn [d_offset].
    rewrite w64_mul_l, (N.mul_comm e), <- N.mul_assoc, <- w64_mul_l, F, w64_mul_l, stored_volume.
    rewrite w64_small; cbn [volume]; lia.
Qed.

Lemma vector_sizes ptr ext : map d_size (p_descs (vector_proxy ptr ext)) = ext.
Proof. apply (proj1 (plain_descs_facts ext)). Qed.

Lemma vector_traverse sz fuel ptr ext : 0 < sz -> ext <> [] ->
  Forall (fun x => (N.to_nat x < fuel)%nat) ext -> ptr < 2 ^ 64 ->
  ptr + volume ext * sz < 2 ^ 64 ->
  traverse Plain sz fuel ptr (p_descs (vector_proxy ptr ext)) =
  Some (map (nested Plain sz (vector_proxy ptr ext)) (all_indices ext)).
Proof.
  intros Hz En F B0 B. pose proof (vector_sizes ptr ext) as Sz.
  destruct ext as [|e ext]; [congruence|].
  destruct (positive_or_zero (e :: ext)) as [P|Z].
  - inversion P as [|? ? Pe P']; subst. pose proof (volume_pos _ P').
    assert (St : steps Plain sz (p_descs (vector_proxy ptr (e :: ext))) = esteps sz ext).
    { unfold vector_proxy, steps. cbn [p_descs]. rewrite plain_tl. apply plain_steps_exact; try assumption.
      cbn [volume] in B. nia. }
    rewrite traverse_dot; rewrite ?Sz; try assumption.
    + f_equal. apply map_ext_in. intros is Hi. apply all_indices_range in Hi.
      rewrite vector_access; [|discriminate|exact Hz|exact Hi|lia].
      rewrite St. apply in_range_length in Hi. cbn in Hi. rewrite (dot_dense sz e ext) by lia. reflexivity.
    + intros E. rewrite E in Sz. discriminate.
    + rewrite St. apply esteps_ok, le_refl_list.
    + rewrite St, esteps_hd, stored_volume. cbn [hd]. cbn [volume] in B. lia.
  - rewrite traverse_zero; [|now rewrite Sz|exact B0|now rewrite Sz].
    assert (E : all_indices (e :: ext) = []).
    { destruct (all_indices (e :: ext)) as [|is l] eqn:E; [reflexivity|].
      assert (H : In is (all_indices (e :: ext))) by (rewrite E; now left).
      apply all_indices_range, positive_range in H. eapply Forall_forall in H; [|exact Z]. lia. }
    now rewrite E.
Qed.

Lemma vector_total ptr ext : ext <> [] -> w64 (total_size (vector_proxy ptr ext)) = w64 (volume ext).
Proof.
  intros E. unfold total_size, top, vector_proxy. cbn [p_descs].
  pose proof (plain_descs_facts ext) as [_ G]. destruct (plain_descs ext) as [|d ds]; [congruence|]. cbn. tauto.
Qed.

Lemma vector_plain sz fuel ptr ext : 0 < sz -> ext <> [] ->
  (N.to_nat (volume ext) < fuel)%nat -> ptr + volume ext * sz < 2 ^ 64 ->
  plain_walk sz fuel (vector_proxy ptr ext) = Some (map (nested Plain sz (vector_proxy ptr ext)) (all_indices ext)).
Proof.
  intros Hz E F B. unfold plain_walk.
  assert (T : mul64 (total_size (vector_proxy ptr ext)) sz = mul64 (volume ext) sz).
  { unfold mul64. now rewrite <- w64_mul_l, vector_total, w64_mul_l. }
  rewrite T. change (p_ptr (vector_proxy ptr ext)) with ptr.
  rewrite walk_upto; [|exact Hz|exact F|exact B]. f_equal.
  rewrite <- row_major_all, map_map. apply map_ext_in. intros is Hi. apply all_indices_range in Hi.
  rewrite vector_access; [reflexivity|exact E|exact Hz|exact Hi|lia].
Qed.

(* views with byte strides *)
Lemma byte_descs_facts es :
  map d_size (byte_descs es) = map fst es /\ map d_offset (byte_descs es) = map snd es /\
  match byte_descs es with
  | [] => es = []
  | d :: _ => es <> [] /\ w64 (d_total d) = w64 (volume (map fst es)) /\ d_offset d = hd 0 (map snd es)
  end.
Proof.
  induction es as [|[e s] es (IH1 & IH2 & IH3)]; [easy|].
  cbn [byte_descs]. destruct (byte_descs es) as [|d ds] eqn:E.
  - subst es. cbn. rewrite N.mul_1_r. easy.
  - destruct IH3 as (_ & IH & _). cbn in *. split; [f_equal; exact IH1|]. split; [f_equal; exact IH2|].
    split; [discriminate|]. split; [|reflexivity].
    unfold mul64. now rewrite w64_w64, <- w64_mul_r, IH, w64_mul_r.
Qed.

Lemma byte_steps sz e es : steps Strided sz (top_desc sz e (byte_descs es)) = map snd es ++ [sz].
Proof.
  unfold steps. rewrite (proj2 (top_desc_facts _ _ _)). f_equal.
  rewrite <- (proj1 (proj2 (byte_descs_facts es))). reflexivity.
Qed.

Lemma byte_view_sizes sz ptr e es : map d_size (p_descs (byte_view sz ptr e es)) = e :: map fst es.
Proof.
  unfold byte_view. cbn [p_descs]. rewrite (proj1 (top_desc_facts _ _ _)).
  now rewrite (proj1 (byte_descs_facts es)).
Qed.

Lemma roomy_ok sz e es : roomy sz es -> ok (e :: map fst es) (map snd es ++ [sz]).
Proof.
  revert e. induction es as [|[x s] es IH]; intros e H; [exact I|].
  cbn [roomy] in H. destruct H as [H1 H2]. specialize (IH x H2).
  destruct es as [|[x' s'] es].
  - cbn. tauto.
  - cbn [map fst snd app]. change (x * s' <= s /\ ok (x :: map fst ((x', s') :: es)) (map snd ((x', s') :: es) ++ [sz])).
    now split.
Qed.

Lemma byte_view_dot sz ptr e es is : length is = S (length es) ->
  nested Strided sz (byte_view sz ptr e es) is = w64 (ptr + dot is (map snd es ++ [sz])).
Proof.
  intros L. rewrite nested_dot.
  - unfold byte_view. cbn [p_descs p_ptr]. now rewrite byte_steps.
  - rewrite <- (map_length d_size), byte_view_sizes. cbn. now rewrite map_length.
  - now destruct is.
Qed.

Definition byte_block (sz e : N) (es : list (N * N)) : N := e * hd sz (map snd es).

Lemma byte_hd sz (es : list (N * N)) : hd 0 (map snd es ++ [sz]) = hd sz (map snd es).
Proof. now destruct es as [|[x s] es]. Qed.

Lemma byte_view_inside sz e es is : roomy sz es -> in_range (e :: map fst es) is ->
  dot is (map snd es ++ [sz]) + sz <= byte_block sz e es.
Proof.
  intros R I. pose proof (dot_inside _ _ _ (roomy_ok sz e es R) I) as D.
  rewrite last_last, byte_hd in D. exact D.
Qed.

Lemma byte_view_access sz ptr e es is : 0 < sz -> roomy sz es ->
  in_range (e :: map fst es) is -> ptr + byte_block sz e es <= 2 ^ 64 ->
  nested Strided sz (byte_view sz ptr e es) is = ptr + dot is (map snd es ++ [sz]).
Proof.
  intros Hz S R B. pose proof (byte_view_inside sz e es is S R).
  apply in_range_length in R. cbn in R. rewrite map_length in R.
  rewrite byte_view_dot by lia. apply w64_small. lia.
Qed.

Lemma byte_view_stored sz ptr e es : byte_block sz e es < 2 ^ 64 ->
  total_stored Strided sz (byte_view sz ptr e es) = byte_block sz e es.
Proof.
  intros B. unfold total_stored, top, byte_view. cbn [p_descs].
  pose proof (byte_descs_facts es) as (_ & _ & F). unfold byte_block in *.
  destruct (byte_descs es) as [|d ds].
  - subst es. cbn in *. unfold mul64. now apply w64_small.
  - destruct F as (Ne & _ & F). unfold bytes, offset_to_bytes. cbn [top_desc hd d_offset].
    rewrite F. destruct es as [|[x s] es]; [congruence|]. cbn [map hd snd] in *. unfold mul64. now apply w64_small.
Qed.

Lemma byte_view_total sz ptr e es : w64 (total_size (byte_view sz ptr e es)) = w64 (volume (e :: map fst es)).
Proof.
  unfold total_size, top, byte_view. cbn [p_descs].
  pose proof (byte_descs_facts es) as (_ & _ & F).
  destruct (byte_descs es) as [|d ds].
  - subst es. cbn. now rewrite N.mul_1_r.
  - destruct F as (_ & F & _). cbn [top_desc hd d_total]. unfold mul64.
    rewrite w64_w64, <- w64_mul_r, F. apply w64_mul_r.
Qed.

Lemma byte_view_continuous sz fuel ptr e es : 0 < sz -> roomy sz es ->
  Forall (fun x => (N.to_nat x < fuel)%nat) (e :: map fst es) -> ptr < 2 ^ 64 ->
  (N.to_nat (volume (e :: map fst es)) < fuel)%nat ->
  (0 < volume (e :: map fst es) -> ptr + byte_block sz e es < 2 ^ 64) ->
  view_continuous sz (byte_view sz ptr e es) = true ->
  plain_walk sz fuel (byte_view sz ptr e es) = traverse Strided sz fuel ptr (p_descs (byte_view sz ptr e es)).
Proof.
  intros Hz S F B0 Fv B C. pose proof (byte_view_sizes sz ptr e es) as Sz.
  pose proof (roomy_ok sz e es S) as O.
  unfold plain_walk.
  assert (T : mul64 (total_size (byte_view sz ptr e es)) sz = mul64 (volume (e :: map fst es)) sz).
  { unfold mul64. now rewrite <- w64_mul_l, byte_view_total, w64_mul_l. }
  rewrite T. change (p_ptr (byte_view sz ptr e es)) with ptr.
  destruct (positive_or_zero (e :: map fst es)) as [P|Z].
  - specialize (B (volume_pos _ P)).
    pose proof (volume_le _ _ O) as V. rewrite last_last, byte_hd in V. cbn [hd] in V.
    symmetry. rewrite continuous_traversal; rewrite ?Sz; try assumption; [reflexivity| | | |].
    + intros E. rewrite E in Sz. discriminate.
    + unfold byte_view. cbn [p_descs]. now rewrite byte_steps.
    + unfold byte_view. cbn [p_descs]. rewrite byte_steps, byte_hd. exact B.
    + unfold byte_view. cbn [p_descs]. rewrite byte_steps, byte_hd. cbn [hd].
      unfold view_continuous in C. rewrite T in C. apply N.eqb_eq in C.
      change (d_offset (top (byte_view sz ptr e es))) with (total_stored Strided sz (byte_view sz ptr e es)) in C.
      rewrite byte_view_stored in C by lia. unfold mul64 in C. unfold byte_block in *. rewrite w64_small in C; [exact C|]. lia.
  - rewrite traverse_zero; [|now rewrite Sz|exact B0|now rewrite Sz].
    rewrite (volume_zero _ Z). apply walk_empty; [exact B0|lia].
Qed.
