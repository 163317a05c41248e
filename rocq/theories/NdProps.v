(* C10, C12, C13, C14, C26, C56: indexing, views, iterators, samplers, reshape. *)
From Coq Require Import List Bool NArith ZArith Lia Arith.
From Verif Require Import NdModel NdSpec NdProofs NdAccess NdIter NdSampler.
Import ListNotations.
Local Open Scope N_scope.
Set Default Proof Using "Type".

(* ---- C10 ---- *)

(* Element v[i0]...[in] of a vector is the row_major-th element of its block, as is
   element a[i0]...[in] of an array_nd and the one sampled by load. *)
Theorem C10_nested_access_is_row_major sz ptr ext is :
  ext <> [] -> 0 < sz -> in_range ext is -> ptr + volume ext * sz <= 2 ^ 64 ->
  nested Plain sz (vector_proxy ptr ext) is = ptr + row_major ext is * sz /\
  array_nested sz ptr ext is = ptr + row_major ext is * sz /\
  (Forall (fun e => e < 2 ^ 64) ext ->
   load Plain sampler_default sz (vector_proxy ptr ext) (map Z.of_N is) = At (ptr + row_major ext is * sz)).
Proof.
  intros E Hz R B. repeat split.
  - now apply vector_access.
  - now apply array_access.
  - intros S. rewrite <- (vector_access sz ptr ext is E Hz R B).
    replace (nested Plain sz (vector_proxy ptr ext) is) with
      (nested Plain sz (vector_proxy ptr ext) (map Z.to_N (map Z.of_N is))).
    + apply load_default.
      * eauto.
      * intros H. apply E. apply (f_equal (map d_size)) in H. now rewrite vector_sizes in H.
      * unfold sizes. rewrite vector_sizes, map_length. symmetry. now apply in_range_length.
      * clear - R S. induction R; cbn; constructor; inversion S; subst; [unfold uint64; lia|auto].
      * unfold sizes. rewrite vector_sizes. clear - R. induction R; cbn; constructor; [lia|assumption].
    + f_equal. rewrite map_map, <- (map_id is) at 1. rewrite map_id. rewrite <- (map_id is) at 2.
      apply map_ext. intros; apply N2Z.id.
Qed.
Print Assumptions C10_nested_access_is_row_major.

Theorem C10_injective sz ptr ext is js :
  ext <> [] -> 0 < sz -> in_range ext is -> in_range ext js -> ptr + volume ext * sz <= 2 ^ 64 ->
  nested Plain sz (vector_proxy ptr ext) is = nested Plain sz (vector_proxy ptr ext) js -> is = js.
Proof.
  intros E Hz R R' B. rewrite !vector_access by assumption. intros H.
  apply (row_major_inj ext); [assumption|assumption|nia].
Qed.
Print Assumptions C10_injective.

Theorem C10_onto sz ptr ext a :
  ext <> [] -> 0 < sz -> ptr + volume ext * sz <= 2 ^ 64 -> a < volume ext ->
  exists is, in_range ext is /\ nested Plain sz (vector_proxy ptr ext) is = ptr + a * sz.
Proof.
  intros E Hz B H. destruct (row_major_onto ext a H) as (is & R & <-). exists is. split; [exact R|].
  now apply vector_access.
Qed.
Print Assumptions C10_onto.

Theorem C10_lexicographic sz ptr ext is js :
  ext <> [] -> 0 < sz -> in_range ext is -> in_range ext js -> ptr + volume ext * sz <= 2 ^ 64 ->
  (lex is js <-> nested Plain sz (vector_proxy ptr ext) is < nested Plain sz (vector_proxy ptr ext) js).
Proof.
  intros E Hz R R' B. rewrite !vector_access by assumption. rewrite (row_major_lex ext) by assumption. nia.
Qed.
Print Assumptions C10_lexicographic.

Example C10_example :
  let ext := [3; 4; 5] in let is := [2; 1; 3] in
  in_range ext is /\ 4096 + volume ext * 8 <= 2 ^ 64 /\ row_major ext is = 48 /\
  nested Plain 8 (vector_proxy 4096 ext) is = 4480 /\ array_nested 8 4096 ext is = 4480 /\
  load Plain sampler_default 8 (vector_proxy 4096 ext) [2; 1; 3]%Z = At 4480 /\ lex [2; 0; 4] is.
Proof.
  cbn zeta. split; [repeat constructor|]. split; [vm_compute; discriminate|]. split; [reflexivity|].
  do 3 (split; [vm_compute; reflexivity|]). apply lex_there, lex_here; reflexivity.
Qed.

(* ---- C12 ---- *)

(* The address of an element of a view with element strides: base plus the sum of
   index times stride(dim), the last index times the element size. *)
Theorem C12_sum_of_strides sz ptr e es is :
  0 < sz -> Forall (fun p => fst p <= snd p) es -> in_range (e :: map fst es) is ->
  ptr + e * stored sz (map snd es) <= 2 ^ 64 -> e * stored sz (map snd es) < 2 ^ 64 ->
  let v := elem_view sz ptr e es in
  nested Strided sz v is = ptr + dot is (map (stride Strided sz v) (seq 0 (length es)) ++ [sz]).
Proof.
  intros Hz S R B B'. cbn zeta. rewrite elem_view_access by assumption. do 2 f_equal.
  apply positive_range in R. inversion R as [|? ? Pe P]; subst.
  rewrite <- (elem_view_steps sz e es); try assumption.
  unfold steps, stride, elem_view. cbn [p_descs]. f_equal.
  assert (L : length (tl (top_desc sz e (elem_descs sz es))) = length es).
  { rewrite (proj2 (top_desc_facts _ _ _)), <- (map_length d_size), (proj1 (elem_descs_facts sz es)). apply map_length. }
  rewrite <- L. generalize (top_desc sz e (elem_descs sz es)) as ds. clear. intros [|d ds]; [reflexivity|].
  cbn [tl]. change (fun dim => bytes Strided sz (nth (S dim) (d :: ds) (Desc 0 0 0))) with
    (fun dim => bytes Strided sz (nth dim ds (Desc 0 0 0))).
  induction ds as [|x ds IH]; [reflexivity|]. cbn [map length seq]. f_equal.
  rewrite <- seq_shift, map_map. exact IH.
Qed.
Print Assumptions C12_sum_of_strides.

(* Every element lies inside the block of print_size() bytes. *)
Theorem C12_inside_the_block sz ptr e es is :
  0 < sz -> Forall (fun p => fst p <= snd p) es -> in_range (e :: map fst es) is ->
  ptr + e * stored sz (map snd es) <= 2 ^ 64 -> e * stored sz (map snd es) < 2 ^ 64 ->
  let v := elem_view sz ptr e es in
  total_stored Strided sz v = e * stored sz (map snd es) /\
  ptr <= nested Strided sz v is /\
  nested Strided sz v is + sz <= ptr + total_stored Strided sz v.
Proof.
  intros Hz S R B B'. cbn zeta. rewrite elem_view_stored by exact B'. rewrite elem_view_access by assumption.
  pose proof (dot_le_block e _ _ sz is (Forall2_map_pairs _ _ S) R). repeat split; lia.
Qed.
Print Assumptions C12_inside_the_block.

(* Different elements do not overlap, and their addresses are in the order of the
   indices. *)
Theorem C12_elements_are_apart sz ptr e es is js :
  0 < sz -> Forall (fun p => fst p <= snd p) es ->
  in_range (e :: map fst es) is -> in_range (e :: map fst es) js -> lex is js ->
  ptr + e * stored sz (map snd es) <= 2 ^ 64 ->
  let v := elem_view sz ptr e es in
  nested Strided sz v is + sz <= nested Strided sz v js.
Proof.
  intros Hz S R R' X B. cbn zeta. rewrite !elem_view_access by assumption.
  pose proof (dot_spaced _ _ _ _ (esteps_ok sz e _ _ (Forall2_map_pairs _ _ S)) R R' X) as D.
  rewrite esteps_last in D. lia.
Qed.
Print Assumptions C12_elements_are_apart.

Theorem C12_distinct sz ptr e es is js :
  0 < sz -> Forall (fun p => fst p <= snd p) es ->
  in_range (e :: map fst es) is -> in_range (e :: map fst es) js ->
  ptr + e * stored sz (map snd es) <= 2 ^ 64 ->
  nested Strided sz (elem_view sz ptr e es) is = nested Strided sz (elem_view sz ptr e es) js -> is = js.
Proof.
  intros Hz S R R' B E. destruct (lex_total is js) as [H|[X|X]].
  - apply in_range_length in R, R'. congruence.
  - exact H.
  - pose proof (C12_elements_are_apart sz ptr e es is js Hz S R R' X B). cbn zeta in *. lia.
  - pose proof (C12_elements_are_apart sz ptr e es js is Hz S R' R X B). cbn zeta in *. lia.
Qed.
Print Assumptions C12_distinct.

(* A view made of a proxy shows the same elements in the same order: its sizes,
   strides and total size are those of the proxy, and every element has the same
   address.  The bytes it stores are those of the proxy if it has two dimensions or
   more; of a row of elements it forgets the gap behind the last element. *)
Lemma map_nested k sz is : forall p,
  nested Strided sz (Proxy (p_ptr p) (map (fun d => Desc (d_size d) (d_total d) (bytes k sz d)) (p_descs p))) is = nested k sz p is.
Proof.
  induction is as [|i is IH]; intros p; [reflexivity|]. destruct is as [|j is]; [reflexivity|].
  set (m := fun p => Proxy (p_ptr p) (map (fun d => Desc (d_size d) (d_total d) (bytes k sz d)) (p_descs p))) in *.
  change (nested Strided sz (sub_view Strided sz (m p) i) (j :: is) = nested k sz (sub_view k sz p i) (j :: is)).
  rewrite <- IH. destruct p as [q [|d0 [|d1 ds]]]; reflexivity.
Qed.
Lemma row_nested k sz q q' d d' is : forall i, q = q' -> nested k sz (Proxy q [d]) (i :: is) = nested Strided sz (Proxy q' [d']) (i :: is).
Proof.
  induction is as [|j is IH]; intros i <-; [reflexivity|].
  change (nested k sz (Proxy q [d]) (j :: is) = nested Strided sz (Proxy q [d']) (j :: is)). now apply IH.
Qed.
Lemma view_nested k sz is p : nested Strided sz (view_of_proxy k sz p) is = nested k sz p is.
Proof.
  destruct is as [|i is]; [reflexivity|].
  destruct p as [q [|d0 [|d1 ds]]]; [apply (map_nested k)| |apply (map_nested k sz (i :: is) (Proxy q (d0 :: d1 :: ds)))].
  symmetry. now apply row_nested.
Qed.
Lemma view_traverse k sz fuel ds : forall q,
  traverse Strided sz fuel q (map (fun d => Desc (d_size d) (d_total d) (bytes k sz d)) ds) = traverse k sz fuel q ds.
Proof.
  induction ds as [|d [|d' r] IH]; intros q; [reflexivity|reflexivity|].
  set (f := fun d => Desc (d_size d) (d_total d) (bytes k sz d)) in *.
  change (match walk fuel (bytes k sz d') q (add64 q (mul64 (d_size d) (bytes k sz d'))) with
    | Some ps => opt_concat (map (fun q => traverse Strided sz fuel q (map f (d' :: r))) ps) | None => None end =
    match walk fuel (bytes k sz d') q (add64 q (mul64 (d_size d) (bytes k sz d'))) with
    | Some ps => opt_concat (map (fun q => traverse k sz fuel q (d' :: r)) ps) | None => None end).
  destruct (walk fuel _ _ _); [|reflexivity]. f_equal. apply map_ext. exact IH.
Qed.
Theorem C12_view_of_proxy k sz p :
  (forall d, p_descs p = [d] -> d_total d = d_size d) ->
  let v := view_of_proxy k sz p in
  (forall is, nested Strided sz v is = nested k sz p is) /\
  (forall fuel, traverse Strided sz fuel (p_ptr v) (p_descs v) = traverse k sz fuel (p_ptr p) (p_descs p)) /\
  (forall dim, size v dim = size p dim) /\
  (forall dim, (S dim < length (p_descs p))%nat -> stride Strided sz v dim = stride k sz p dim) /\
  total_size v = total_size p /\
  ((1 < length (p_descs p))%nat -> total_stored Strided sz v = total_stored k sz p) /\
  (length (p_descs p) = 1%nat -> total_stored Strided sz v = mul64 (size p 0) sz /\ view_continuous sz v = true) /\
  proxy_continuous Strided sz v = proxy_continuous k sz p.
Proof.
  intros T. cbn zeta. split; [intros is; apply view_nested|].
  destruct p as [q [|d0 [|d1 ds]]].
  { cbn. repeat split; try easy; intros [|dim]; reflexivity. }
  { specialize (T d0 eq_refl). cbn [p_descs p_ptr length]. split; [reflexivity|].
    split; [intros [|[|dim]]; reflexivity|]. split; [lia|]. split; [symmetry; exact T|]. split; [lia|]. split; [|reflexivity].
    intros _. split; [reflexivity|]. apply N.eqb_refl. }
  clear T. split; [intros fuel; apply (view_traverse k sz fuel (d0 :: d1 :: ds))|].
  remember (d0 :: d1 :: ds) as l eqn:El.
  assert (M : view_of_proxy k sz (Proxy q l) = Proxy q (map (fun d => Desc (d_size d) (d_total d) (bytes k sz d)) l)) by now subst l.
  rewrite M. unfold size, stride. cbn [p_descs p_ptr].
  set (f := fun d => Desc (d_size d) (d_total d) (bytes k sz d)) in *. split.
  { intros dim. destruct (Nat.lt_ge_cases dim (length l)) as [L|L].
    - rewrite (nth_indep _ _ (f (Desc 0 0 0))) by (rewrite map_length; exact L). rewrite map_nth. reflexivity.
    - rewrite !nth_overflow; rewrite ?map_length; auto. }
  split.
  { intros dim L. rewrite (nth_indep (map f l) (Desc 0 0 0) (f (Desc 0 0 0))) by (rewrite map_length; exact L). rewrite map_nth. reflexivity. }
  subst l. cbn. repeat split; congruence.
Qed.
Print Assumptions C12_view_of_proxy.

(* A row of three elements with a gap of two: the view of it stores 12 bytes. *)
Example C12_view_of_row_example :
  let r := sub_view Strided 4 (elem_view 4 4096 2 [(3, 5)]) 1 in
  total_stored Strided 4 r = 20 /\ total_stored Strided 4 (view_of_proxy Strided 4 r) = 12.
Proof. split; reflexivity. Qed.

(* A view of a vector is continuous. *)
Example C12_view_of_proxy_example :
  let v := view_of_proxy Plain 4 (vector_proxy 4096 [2; 3; 5]) in
  nested Strided 4 v [1; 2; 4] = 4096 + 29 * 4 /\ stride Strided 4 v 0 = 60 /\ stride Strided 4 v 1 = 20 /\
  view_continuous 4 v = true.
Proof. cbn zeta. repeat split. Qed.

(* Byte strides: the same when every stride leaves room for the dimension below *)
Theorem C12_byte_strides sz ptr e es is js :
  0 < sz -> roomy sz es -> in_range (e :: map fst es) is -> in_range (e :: map fst es) js ->
  ptr + e * hd sz (map snd es) <= 2 ^ 64 ->
  let v := byte_view sz ptr e es in
  nested Strided sz v is = ptr + dot is (map snd es ++ [sz]) /\
  nested Strided sz v is + sz <= ptr + e * hd sz (map snd es) /\
  (lex is js -> nested Strided sz v is + sz <= nested Strided sz v js).
Proof.
  intros Hz S R R' B. cbn zeta. rewrite !byte_view_access by assumption.
  pose proof (byte_view_inside sz e es is S R). unfold byte_block in *. repeat split; [lia|]. intros X.
  pose proof (dot_spaced _ _ _ _ (roomy_ok sz e es S) R R' X) as D. rewrite last_last in D. lia.
Qed.
Print Assumptions C12_byte_strides.

(* The check of the constructor compares the extent of elements with the stride in
   bytes; a view that passes it can have overlapping elements. *)
Theorem C12_byte_strides_refuted :
  exists sz ptr e es is js,
    Forall (fun p => fst p <= snd p) es /\
    in_range (e :: map fst es) is /\ in_range (e :: map fst es) js /\ lex is js /\
    nested Strided sz (byte_view sz ptr e es) js < nested Strided sz (byte_view sz ptr e es) is + sz.
Proof.
  exists 4, 4096, 2, [(3, 4)], [0; 2], [1; 0].
  split; [repeat constructor; discriminate|]. split; [repeat constructor|]. split; [repeat constructor|].
  split; [apply lex_here; reflexivity|]. vm_compute. reflexivity.
Qed.
Print Assumptions C12_byte_strides_refuted.

Example C12_example :
  let es := [(3, 5); (4, 6)] in let is := [1; 2; 3] in
  Forall (fun p => fst p <= snd p) es /\ in_range (2 :: map fst es) is /\
  4096 + 2 * stored 4 (map snd es) <= 2 ^ 64 /\
  nested Strided 4 (elem_view 4 4096 2 es) is = 4096 + 1 * 120 + 2 * 24 + 3 * 4 /\
  total_stored Strided 4 (elem_view 4 4096 2 es) = 240 /\
  map (stride Strided 4 (elem_view 4 4096 2 es)) [0; 1]%nat = [120; 24] /\
  roomy 4 [(3, 24); (2, 8)].
Proof.
  cbn zeta. split; [repeat constructor; discriminate|]. split; [repeat constructor|]. split; [vm_compute; discriminate|].
  do 3 (split; [vm_compute; reflexivity|]). cbn. repeat split; vm_compute; discriminate.
Qed.

(* ---- C13 ---- *)

(* The nested loops visit the elements in row-major order; if continuous() holds,
   walking from plain_begin to plain_end visits the same addresses in the same order. *)
Theorem C13_nested_traversal sz fuel ptr e es :
  0 < sz -> Forall (fun p => fst p <= snd p) es ->
  Forall (fun x => (N.to_nat x < fuel)%nat) (e :: map fst es) -> ptr < 2 ^ 64 ->
  (0 < volume (e :: map fst es) -> ptr + e * stored sz (map snd es) < 2 ^ 64) ->
  let v := elem_view sz ptr e es in
  traverse Strided sz fuel ptr (p_descs v) = Some (map (nested Strided sz v) (all_indices (e :: map fst es))).
Proof. exact (elem_view_traverse sz fuel ptr e es). Qed.
Print Assumptions C13_nested_traversal.

Theorem C13_continuous_means_plain sz fuel ptr e es :
  0 < sz -> Forall (fun p => fst p <= snd p) es ->
  Forall (fun x => (N.to_nat x < fuel)%nat) (e :: map fst es) -> ptr < 2 ^ 64 ->
  (N.to_nat (volume (e :: map fst es)) < fuel)%nat ->
  (0 < volume (e :: map fst es) -> ptr + e * stored sz (map snd es) < 2 ^ 64) ->
  let v := elem_view sz ptr e es in
  view_continuous sz v = true ->
  plain_walk sz fuel v = Some (map (nested Strided sz v) (all_indices (e :: map fst es))).
Proof.
  intros Hz S F B0 Fv B. cbn zeta. intros C. rewrite elem_view_continuous by assumption. now apply elem_view_traverse.
Qed.
Print Assumptions C13_continuous_means_plain.

(* the same for the proxies of lower dimensions, whose continuous() is another test *)
Theorem C13_proxy_continuous sz fuel ptr e s es :
  0 < sz -> Forall (fun p => fst p <= snd p) es ->
  Forall (fun x => (N.to_nat x < fuel)%nat) (e :: map fst es) -> ptr < 2 ^ 64 ->
  (N.to_nat (volume (e :: map fst es)) < fuel)%nat ->
  (0 < volume (e :: map fst es) -> ptr + e * stored sz (map snd es) < 2 ^ 64) ->
  let p := Proxy ptr (elem_descs sz ((e, s) :: es)) in
  proxy_continuous Strided sz p = true ->
  plain_walk sz fuel p = Some (map (nested Strided sz p) (all_indices (e :: map fst es))).
Proof.
  intros Hz S F B0 Fv B. cbn zeta. intros C. rewrite elem_proxy_continuous by assumption.
  rewrite elem_proxy_traverse, elem_view_traverse by assumption. f_equal. apply map_ext_in. intros is Hi.
  apply all_indices_range, in_range_length in Hi. cbn in Hi. rewrite map_length in Hi.
  symmetry. apply elem_proxy_nested. lia.
Qed.
Print Assumptions C13_proxy_continuous.

(* a view without gaps says that it is continuous, and so does each proxy in it, in
   one dimension always *)
Theorem C13_dense_is_continuous sz ptr e ext :
  0 < sz -> volume (e :: ext) * sz < 2 ^ 64 -> (0 < e) ->
  view_continuous sz (dense_view sz ptr e ext) = true /\
  (forall s, proxy_continuous Strided sz (Proxy ptr (elem_descs sz ((e, s) :: map (fun x => (x, x)) ext))) = true).
Proof.
  intros Hz B He. assert (Es : stored sz ext = volume ext * sz).
  { clear. induction ext as [|x r IH]; cbn [stored volume]; [lia|]. rewrite IH. lia. }
  assert (Mf : map fst (map (fun x : N => (x, x)) ext) = ext) by (rewrite map_map; apply map_id).
  assert (Ms : map snd (map (fun x : N => (x, x)) ext) = ext) by (rewrite map_map; apply map_id).
  cbn [volume] in B. split.
  - unfold view_continuous, dense_view. apply N.eqb_eq.
    change (d_offset (top (elem_view sz ptr e (map (fun x => (x, x)) ext)))) with (total_stored Strided sz (elem_view sz ptr e (map (fun x => (x, x)) ext))).
    rewrite elem_view_stored by (rewrite Ms, Es; lia). rewrite Ms, Es.
    unfold mul64. rewrite <- w64_mul_l, elem_view_total, w64_mul_l, Mf. cbn [volume]. rewrite w64_small; lia.
  - intros s. unfold proxy_continuous. cbn [p_descs elem_descs]. pose proof (elem_descs_facts sz (map (fun x => (x, x)) ext)) as [_ G].
    destruct (elem_descs sz (map (fun x => (x, x)) ext)) as [|d ds]; [reflexivity|]. destruct G as (_ & G & O). apply N.eqb_eq. unfold bytes, offset_to_bytes.
    rewrite O, Ms, Es. unfold mul64. rewrite <- (w64_mul_l (d_total d)), G, w64_mul_l, Mf. reflexivity.
Qed.
Print Assumptions C13_dense_is_continuous.
Example C13_dense_example : view_continuous 4 (dense_view 4 4096 2 [3; 5]) = true /\ proxy_continuous Strided 4 (Proxy 4096 (elem_descs 4 [(7, 9)])) = true.
Proof. split; vm_compute; reflexivity. Qed.

(* vectors are always continuous *)
Theorem C13_vector sz fuel ptr ext :
  0 < sz -> ext <> [] -> Forall (fun x => (N.to_nat x < fuel)%nat) ext -> ptr < 2 ^ 64 ->
  (N.to_nat (volume ext) < fuel)%nat -> ptr + volume ext * sz < 2 ^ 64 ->
  plain_walk sz fuel (vector_proxy ptr ext) = Some (map (nested Plain sz (vector_proxy ptr ext)) (all_indices ext)) /\
  traverse Plain sz fuel ptr (p_descs (vector_proxy ptr ext)) = plain_walk sz fuel (vector_proxy ptr ext).
Proof.
  intros Hz E F B0 Fv B. rewrite vector_plain by assumption. split; [reflexivity|]. now apply vector_traverse.
Qed.
Print Assumptions C13_vector.

(* byte strides that leave room *)
Theorem C13_byte_strides sz fuel ptr e es :
  0 < sz -> roomy sz es -> Forall (fun x => (N.to_nat x < fuel)%nat) (e :: map fst es) -> ptr < 2 ^ 64 ->
  (N.to_nat (volume (e :: map fst es)) < fuel)%nat ->
  (0 < volume (e :: map fst es) -> ptr + e * hd sz (map snd es) < 2 ^ 64) ->
  let v := byte_view sz ptr e es in
  view_continuous sz v = true ->
  plain_walk sz fuel v = traverse Strided sz fuel ptr (p_descs v).
Proof. exact (byte_view_continuous sz fuel ptr e es). Qed.
Print Assumptions C13_byte_strides.

(* A view with byte strides that passes the checks of the constructor can report
   continuous() although the plain walk is another sequence. *)
Theorem C13_byte_strides_refuted :
  exists sz fuel ptr e es,
    Forall (fun p => fst p <= snd p) es /\
    view_continuous sz (byte_view sz ptr e es) = true /\
    plain_walk sz fuel (byte_view sz ptr e es) <> traverse Strided sz fuel ptr (p_descs (byte_view sz ptr e es)) /\
    traverse Strided sz fuel ptr (p_descs (byte_view sz ptr e es)) =
      Some (map (nested Strided sz (byte_view sz ptr e es)) (all_indices (e :: map fst es))).
Proof.
  exists 1, 10%nat, 4096, 1, [(2, 4); (2, 3)].
  split; [repeat constructor; discriminate|]. split; [reflexivity|]. split; [vm_compute; discriminate|].
  vm_compute. reflexivity.
Qed.
Print Assumptions C13_byte_strides_refuted.

Example C13_example :
  let v := elem_view 4 4096 2 [(3, 3); (2, 2)] in
  view_continuous 4 v = true /\
  plain_walk 4 100 v = traverse Strided 4 100 4096 (p_descs v) /\
  view_continuous 4 (elem_view 4 4096 2 [(3, 4); (2, 2)]) = false /\
  proxy_continuous Strided 4 (Proxy 4096 (elem_descs 4 [(3, 4); (2, 2)])) = true /\
  roomy 4 [(3, 24); (2, 8)] /\ view_continuous 4 (byte_view 4 4096 2 [(3, 24); (2, 8)]) = true.
Proof.
  cbn zeta. do 4 (split; [vm_compute; reflexivity|]). split; [cbn; repeat split; vm_compute; discriminate|].
  vm_compute. reflexivity.
Qed.

(* ---- C14 ---- *)

(* moving by n positions is indexing, moving back undoes it, moves add up *)
Theorem C14_moves k sz c d0 d1 ds i n m :
  p_descs c = d0 :: d1 :: ds -> bytes k sz d1 < 2 ^ 64 -> p_ptr c < 2 ^ 64 ->
  (0 <= Z.of_N i + n)%Z ->
  let it := sub_view k sz c i in
  it_add k sz it n = sub_view k sz c (Z.to_N (Z.of_N i + n)) /\
  it_sub k sz (it_add k sz it n) n = it /\
  it_add k sz (it_add k sz it n) m = it_add k sz it (n + m) /\
  it_next k sz it = it_add k sz it 1 /\ it_prev k sz (it_next k sz it) = it.
Proof.
  intros E Hb Hp H. cbn zeta. set (it := sub_view k sz c i).
  assert (Hs : total_stored k sz it < 2 ^ 64).
  { unfold it, sub_view. rewrite E. exact Hb. }
  assert (Hq : p_ptr it < 2 ^ 64).
  { unfold it, sub_view. rewrite E. cbn [p_ptr]. apply w64_lt. }
  split; [eapply sub_view_add; eassumption|].
  split; [rewrite it_sub_add by exact Hs; rewrite it_add_add, Z.add_opp_diag_r; now apply it_add_zero|].
  split; [apply it_add_add|]. split; [apply it_next_add|].
  rewrite it_next_add, it_prev_add by exact Hs. rewrite it_add_add. now apply it_add_zero.
Qed.
Print Assumptions C14_moves.

(* (it + n) - it == n for every n that keeps the iterator inside the address space *)
Theorem C14_forward_difference k sz it n :
  total_stored k sz it <> 0 -> (0 <= n < 2 ^ 63)%Z ->
  p_ptr it + Z.to_N n * total_stored k sz it < 2 ^ 64 ->
  it_diff k sz (it_add k sz it n) it = Some n.
Proof. exact (it_diff_forward k sz it n). Qed.
Print Assumptions C14_forward_difference.

Theorem C14_order k sz c d0 d1 ds i j :
  p_descs c = d0 :: d1 :: ds -> 0 < bytes k sz d1 -> i <= d_size d0 -> j <= d_size d0 ->
  p_ptr c + d_size d0 * bytes k sz d1 < 2 ^ 64 ->
  (it_lt (sub_view k sz c i) (sub_view k sz c j) = true <-> i < j) /\
  (it_eq (sub_view k sz c i) (sub_view k sz c j) = true <-> i = j).
Proof. exact (it_order k sz c d0 d1 ds i j). Qed.
Print Assumptions C14_order.

(* begin() and end() enclose size(0) sub-views: stepping i times from begin is at
   sub-view i, stepping size(0) times at end, and end - begin is the size. *)
Theorem C14_begin_end k sz c d0 d1 ds :
  p_descs c = d0 :: d1 :: ds -> 0 < bytes k sz d1 < 2 ^ 64 ->
  p_ptr c + d_size d0 * bytes k sz d1 < 2 ^ 64 -> d_size d0 < 2 ^ 63 ->
  (forall i, i <= d_size d0 -> N.iter i (it_next k sz) (it_begin k sz c) = sub_view k sz c i) /\
  (forall i, i <= d_size d0 -> it_eq (N.iter i (it_next k sz) (it_begin k sz c)) (it_end k sz c) = true <-> i = size c 0) /\
  it_diff k sz (it_end k sz c) (it_begin k sz c) = Some (Z.of_N (size c 0)).
Proof.
  intros E [Hb Hb'] B S. assert (Z0 : size c 0 = d_size d0) by (unfold size; rewrite E; reflexivity).
  assert (ZE : it_end k sz c = sub_view k sz c (d_size d0)) by (unfold it_end, top; rewrite E; reflexivity).
  assert (IT : forall i, i <= d_size d0 -> N.iter i (it_next k sz) (it_begin k sz c) = sub_view k sz c i).
  { intros i. induction i as [|i IH] using N.peano_ind; intros L; [reflexivity|].
    rewrite N.iter_succ, IH by lia. unfold it_next, sub_view, total_stored, top. rewrite E. cbn [p_ptr p_descs hd]. f_equal.
    unfold add64, mul64, w64. assert (i * bytes k sz d1 <= d_size d0 * bytes k sz d1) by nia.
    assert (N.succ i * bytes k sz d1 <= d_size d0 * bytes k sz d1) by nia.
    rewrite (N.mod_small (i * bytes k sz d1)) by lia. rewrite (N.mod_small (p_ptr c + _)) by lia.
    rewrite (N.mod_small (N.succ i * bytes k sz d1)) by lia. f_equal. lia. }
  split; [exact IT|]. split.
  { intros i L. rewrite IT by exact L. rewrite ZE, Z0. apply (C14_order k sz c d0 d1 ds i (d_size d0) E Hb L (N.le_refl _) B). }
  rewrite Z0, ZE. unfold it_begin.
  assert (A : sub_view k sz c (d_size d0) = it_add k sz (sub_view k sz c 0) (Z.of_N (d_size d0))).
  { destruct (C14_moves k sz c d0 d1 ds 0 (Z.of_N (d_size d0)) 0%Z E Hb') as [H _]; [lia|lia|].
    rewrite H. f_equal. lia. }
  assert (TS : total_stored k sz (sub_view k sz c 0) = bytes k sz d1).
  { unfold total_stored, top, sub_view. rewrite E. reflexivity. }
  rewrite A. apply C14_forward_difference; rewrite ?TS; try lia.
  unfold sub_view. rewrite E. cbn [p_ptr]. unfold add64, mul64, w64. rewrite N.mul_0_l, N.mod_0_l, N.add_0_r by discriminate.
  rewrite N.mod_small by lia. lia.
Qed.
Print Assumptions C14_begin_end.

(* Every negative difference between slices of two bytes or more is wrong, by
   2^64 / stride. *)
Theorem C14_negative_difference k sz it n :
  2 <= total_stored k sz it -> (0 < n)%Z -> p_ptr it + Z.to_N n * total_stored k sz it < 2 ^ 64 ->
  it_diff k sz it (it_add k sz it n) = Some (Z.of_N (2 ^ 64 / total_stored k sz it) - n)%Z /\
  it_diff k sz it (it_add k sz it n) <> Some (- n)%Z.
Proof.
  intros Hs Hn B. rewrite it_diff_backward by assumption. split; [reflexivity|]. intros H. injection H as H.
  assert (Z.to_N n <= 2 ^ 64 / total_stored k sz it) by (apply N.div_le_lower_bound; lia). lia.
Qed.
Print Assumptions C14_negative_difference.

Theorem C14_negative_difference_refuted :
  exists k sz it n, total_stored k sz it <> 0 /\ (0 <= n < 2 ^ 63)%Z /\
    p_ptr it + Z.to_N n * total_stored k sz it < 2 ^ 64 /\
    it_diff k sz it (it_add k sz it n) <> Some (- n)%Z.
Proof.
  exists Plain, 4, (Proxy 4096 (plain_descs [3])), 2%Z. repeat split; vm_compute; discriminate.
Qed.
Print Assumptions C14_negative_difference_refuted.

Example C14_begin_end_example :
  let c := vector_proxy 4096 [5; 3; 2] in
  p_ptr (it_begin Plain 4 c) = 4096 /\ p_ptr (it_end Plain 4 c) = 4096 + 5 * 24 /\
  it_diff Plain 4 (it_end Plain 4 c) (it_begin Plain 4 c) = Some 5%Z.
Proof. cbn zeta. repeat split; vm_compute; reflexivity. Qed.

Example C14_example :
  let c := vector_proxy 4096 [5; 3; 2] in let it := sub_view Plain 4 c 1 in
  total_stored Plain 4 it = 24 /\ it_diff Plain 4 (it_add Plain 4 it 3) it = Some 3%Z /\
  p_ptr (it_add Plain 4 it 3) = 4096 + 4 * 24 /\ it_sub Plain 4 (it_add Plain 4 it 3) 3 = it /\
  it_diff Plain 4 it (it_add Plain 4 it 3) = Some 768614336404564647%Z.
Proof. cbn zeta. repeat split; vm_compute; reflexivity. Qed.

(* ---- C26 ---- *)

(* what a container is: a vector or array (its elements are contiguous), or a view *)
Definition container (k : kind) (p : proxy) : Prop :=
  match k with
  | Plain => exists ptr ext, ext <> [] /\ p = vector_proxy ptr ext
  | Strided => p_descs p <> []
  end.
Definition extents (p : proxy) : list N := map d_size (p_descs p).

Lemma container_plain k p : container k p -> k = Plain -> exists ptr ext, p = vector_proxy ptr ext.
Proof. intros C ->. destruct C as (ptr & ext & _ & ->). eauto. Qed.
Lemma container_ne k p : container k p -> p_descs p <> [].
Proof.
  destruct k; [|easy]. intros (ptr & ext & E & ->) H. apply E. apply (f_equal (map d_size)) in H. now rewrite vector_sizes in H.
Qed.

(* Clamping reads the element at the nearest index inside the container. *)
Theorem C26_clamp k sz p is :
  container k p -> length is = length (extents p) ->
  Forall (fun n => 0 < n < 2 ^ 64) (extents p) -> Forall int32 is ->
  exists js, in_range (extents p) js /\
    js = map (fun '(n, i) => nearest n i) (combine (extents p) is) /\
    load k sampler_clamp sz p is = At (nested k sz p js) /\ at_ k sampler_clamp sz p is = At (nested k sz p js).
Proof.
  intros C L P I. eexists. split; [|split; [reflexivity|]].
  - apply nearest_in_range; [now symmetry|]. eapply Forall_impl; [|exact P]. cbn. lia.
  - destruct (load_clamp k sz p (container_plain k p C) (container_ne k p C) is L P I) as [H1 H2].
    rewrite H2. split; exact H1.
Qed.
Print Assumptions C26_clamp.

(* Zero padding reads the element when the index is inside and never otherwise. *)
Theorem C26_zero k sz p is :
  container k p -> length is = length (extents p) ->
  Forall (fun n => n < 2 ^ 64) (extents p) -> Forall int32 is ->
  (inside (extents p) is ->
     in_range (extents p) (map Z.to_N is) /\ load k sampler_zero sz p is = At (nested k sz p (map Z.to_N is))) /\
  (~ inside (extents p) is -> load k sampler_zero sz p is = Boundary /\ at_ k sampler_zero sz p is = OutOfRange).
Proof.
  intros C L P I.
  destruct (load_zero k sz p (container_plain k p C) (container_ne k p C) is L P I) as [H1 H2].
  split; [|exact H2]. intros H. split; [now apply inside_range|now apply H1].
Qed.
Print Assumptions C26_zero.

(* at() and the default sampler throw exactly when the index is outside, also for
   negative arguments. *)
Theorem C26_default k sz p is :
  container k p -> length is = length (extents p) ->
  (Forall uint64 is ->
   (inside (extents p) is -> load k sampler_default sz p is = At (nested k sz p (map Z.to_N is)) /\
                             at_ k sampler_default sz p is = At (nested k sz p (map Z.to_N is))) /\
   (~ inside (extents p) is -> load k sampler_default sz p is = OutOfRange /\
                               at_ k sampler_default sz p is = OutOfRange)) /\
  (Forall (fun n => n <= 2 ^ 63) (extents p) -> Forall (fun i => (- 2 ^ 63 <= i < 2 ^ 63)%Z) is ->
   Exists (fun i => (i < 0)%Z) is -> load k sampler_default sz p is = OutOfRange).
Proof.
  intros C L. split.
  - intros I. apply (load_default k sz p (container_plain k p C) (container_ne k p C) is L I).
  - intros P I X. exact (default_negative k sz p (container_plain k p C) (container_ne k p C) is L P I X).
Qed.
Print Assumptions C26_default.

(* An index that does not fit the 32-bit index type of the clamping sampler is
   wrapped: the element read is not the nearest one. *)
Theorem C26_wide_index_refuted :
  exists k sz p is, container k p /\ length is = length (extents p) /\
    Forall (fun n => 0 < n < 2 ^ 64) (extents p) /\
    load k sampler_clamp sz p is <>
      At (nested k sz p (map (fun '(n, i) => nearest n i) (combine (extents p) is))) /\
    load k sampler_zero sz p is = At (nested k sz p [0; 0]) /\ ~ inside (extents p) is.
Proof.
  exists Plain, 4, (vector_proxy 4096 [2; 3]), [2 ^ 32; 2 ^ 32]%Z.
  split; [exists 4096, [2; 3]; split; [discriminate|reflexivity]|]. split; [reflexivity|].
  split; [repeat constructor; vm_compute; reflexivity|]. split; [vm_compute; discriminate|].
  split; [vm_compute; reflexivity|]. intros H. inversion H as [|? ? ? ? B]. cbn in B. lia.
Qed.
Print Assumptions C26_wide_index_refuted.

(* A sampler of the user, whose checks and transforms may depend on the dimension:
   each index is checked and transformed as one of its own dimension, on every
   container. *)
Theorem C26_own_dimension k s sz p is :
  container k p -> length is = length (extents p) ->
  let arg d := s_index s (nth d is 0%Z) in let n d := nth d (extents p) 0 in
  exists js, length js = length is /\
    (forall d, (d < length is)%nat -> nth d js 0 = s_transform s d (arg d) (n d)) /\
    ((forall d, (d < length is)%nat -> s_check s d (arg d) (n d) = true) ->
       load k s sz p is = At (nested k sz p js) /\ at_ k s sz p is = At (nested k sz p js)) /\
    (forall d, (d < length is)%nat -> s_check s d (arg d) (n d) = false ->
       load k s sz p is = (if s_boundary s then Boundary else OutOfRange) /\ at_ k s sz p is = OutOfRange).
Proof.
  intros C L. cbn zeta. exists (eff s (extents p) 0 is).
  assert (Le : length (eff s (extents p) 0 is) = length is) by (apply eff_length; now symmetry).
  assert (Ne : is <> []).
  { intros ->. pose proof (container_ne k p C). unfold extents in L. rewrite map_length in L. now destruct (p_descs p). }
  assert (Ef : forall ns dim is', length is' = length ns -> forall d, (d < length is')%nat ->
      nth d (eff s ns dim is') 0 = s_transform s (dim + d) (s_index s (nth d is' 0%Z)) (nth d ns 0)).
  { induction ns as [|x ns IH]; intros dim [|i is'] L' d Hd; cbn in L', Hd; try lia.
    destruct d as [|d]; cbn; [now rewrite Nat.add_0_r|]. rewrite (IH (S dim)) by lia. now rewrite Nat.add_succ_r. }
  assert (Ck : forall ns dim is', length is' = length ns ->
      (chk s ns dim is' = true <-> forall d, (d < length is')%nat -> s_check s (dim + d) (s_index s (nth d is' 0%Z)) (nth d ns 0) = true)).
  { induction ns as [|x ns IH]; intros dim [|i is'] L'; cbn in L'; try lia; [split; [intros _ d Hd; cbn in Hd; lia|reflexivity]|].
    cbn [chk]. rewrite andb_true_iff, (IH (S dim)) by lia. split.
    - intros [H1 H2] [|d] Hd; cbn [nth]; [now rewrite Nat.add_0_r|]. rewrite Nat.add_succ_r. apply (H2 d). cbn in Hd. lia.
    - intros H. split; [specialize (H 0%nat); cbn in H; rewrite Nat.add_0_r in H; apply H; lia|].
      intros d Hd. specialize (H (S d)). cbn [nth length] in H. rewrite Nat.add_succ_r in H. apply H. lia. }
  specialize (Ck (extents p) 0%nat is L). cbn [Nat.add] in Ck.
  assert (Fe : fetch k s sz p is = nested k sz p (eff s (extents p) 0 is)).
  { apply fetch_any; [unfold extents in L; now rewrite map_length in L|exact Ne|exact (container_plain k p C)]. }
  assert (Cb : check_bounds s p 0 is = chk s (extents p) 0 is) by (apply check_bounds_chk; [reflexivity|exact L]).
  split; [exact Le|]. split; [intros d Hd; apply (Ef (extents p) 0%nat is L d Hd)|].
  unfold load, at_. rewrite Cb, Fe. split.
  - intros H. apply Ck in H. now rewrite H.
  - intros d Hd H. destruct (chk s (extents p) 0 is) eqn:E; [|now split].
    destruct Ck as [Ck _]. rewrite (Ck eq_refl d Hd) in H. discriminate.
Qed.
Print Assumptions C26_own_dimension.
(* a sampler that fixes the column *)
Definition sampler_fixed_column : sampler :=
  Sampler as_size (fun dim i n => negb (dim =? 0)%nat || (i <? Z.of_N n)%Z) (fun dim i _ => if (dim =? 0)%nat then to_u64 i else 2) false.
Example C26_ex_own_dimension :
  let v := vector_proxy 4096 [2; 3] in let w := elem_view 4 4096 2 [(3, 5)] in
  load Plain sampler_fixed_column 4 v [1; 77]%Z = At (nested Plain 4 v [1; 2]) /\
  load Strided sampler_fixed_column 4 w [1; 77]%Z = At (nested Strided 4 w [1; 2]) /\
  load Strided sampler_fixed_column 4 w [2; 0]%Z = OutOfRange.
Proof. cbn zeta. repeat split; vm_compute; reflexivity. Qed.

Example C26_example :
  let v := vector_proxy 4096 [2; 3] in let w := elem_view 4 4096 2 [(3, 5)] in
  container Plain v /\ container Strided w /\
  load Plain sampler_clamp 4 v [-7; 9]%Z = At (nested Plain 4 v [0; 2]) /\
  load Strided sampler_clamp 4 w [9; -1]%Z = At (nested Strided 4 w [1; 0]) /\
  load Plain sampler_zero 4 v [1; -1]%Z = Boundary /\ load Plain sampler_zero 4 v [1; 1]%Z = At 4112 /\
  load Plain sampler_default 4 v [-1; 1]%Z = OutOfRange /\ load Strided sampler_default 4 w [1; 2]%Z = At 4124.
Proof.
  cbn zeta. split; [exists 4096, [2; 3]; split; [discriminate|reflexivity]|]. split; [discriminate|].
  repeat split; vm_compute; reflexivity.
Qed.

(* ---- C56 ---- *)

(* Reshaping a continuous view keeps the sequence of elements. *)
Theorem C56_reshape_keeps_the_sequence sz fuel ptr e es e' ext' :
  0 < sz -> Forall (fun p => fst p <= snd p) es -> ptr < 2 ^ 64 ->
  Forall (fun x => (N.to_nat x < fuel)%nat) (e :: map fst es) ->
  Forall (fun x => (N.to_nat x < fuel)%nat) (e' :: ext') ->
  (N.to_nat (volume (e :: map fst es)) < fuel)%nat ->
  (0 < volume (e :: map fst es) -> ptr + e * stored sz (map snd es) < 2 ^ 64) ->
  let v := elem_view sz ptr e es in
  view_continuous sz v = true -> volume (e' :: ext') = volume (e :: map fst es) ->
  let r := reshape sz v e' ext' in
  extents r = e' :: ext' /\ view_continuous sz r = true /\
  traverse Strided sz fuel (p_ptr r) (p_descs r) = traverse Strided sz fuel ptr (p_descs v) /\
  map (nested Strided sz r) (all_indices (e' :: ext')) = map (nested Strided sz v) (all_indices (e :: map fst es)).
Proof.
  intros Hz S B0 F F' Fv B. cbn zeta. intros C V.
  set (es' := map (fun x => (x, x)) ext').
  assert (M1 : map fst es' = ext') by (unfold es'; rewrite map_map; apply map_id).
  assert (M2 : map snd es' = ext') by (unfold es'; rewrite map_map; apply map_id).
  assert (S' : Forall (fun p => fst p <= snd p) es').
  { apply Forall_forall. intros q Hq. apply in_map_iff in Hq. destruct Hq as (x & <- & _). cbn. lia. }
  change (reshape sz (elem_view sz ptr e es) e' ext') with (elem_view sz ptr e' es').
  clearbody es'.
  assert (C' : view_continuous sz (elem_view sz ptr e' es') = true).
  { unfold view_continuous. apply N.eqb_eq. unfold mul64. rewrite <- w64_mul_l, elem_view_total, w64_mul_l.
    unfold elem_view, top. cbn [p_descs]. pose proof (elem_descs_facts sz es') as [_ G].
    rewrite M1. destruct (elem_descs sz es') as [|d ds].
    - assert (Ex : ext' = []) by (rewrite <- M1, G; reflexivity). rewrite Ex. cbn [volume top_desc hd d_offset]. unfold mul64. f_equal. lia.
    - destruct G as (_ & _ & G). cbn [top_desc hd d_offset]. rewrite G, M2. unfold mul64. rewrite w64_mul_r, stored_volume.
      cbn [volume]. f_equal. lia. }
  assert (B' : 0 < volume (e' :: map fst es') -> ptr + e' * stored sz (map snd es') < 2 ^ 64).
  { rewrite M1, M2, stored_volume. intros H. rewrite V in H. specialize (B H).
    pose proof (volume_le_stored sz _ _ (Forall2_map_pairs _ _ S)). cbn [volume] in V. nia. }
  rewrite <- M1 in F', V. cbn [p_ptr elem_view].
  pose proof (elem_view_traverse sz fuel ptr e es Hz S F B0 B) as T.
  pose proof (elem_view_traverse sz fuel ptr e' es' Hz S' F' B0 B') as T'.
  pose proof (elem_view_continuous sz fuel ptr e es Hz S F B0 Fv B C) as W.
  rewrite <- V in Fv.
  pose proof (elem_view_continuous sz fuel ptr e' es' Hz S' F' B0 Fv B' C') as W'.
  assert (E : plain_walk sz fuel (elem_view sz ptr e' es') = plain_walk sz fuel (elem_view sz ptr e es)).
  { unfold plain_walk. cbn [p_ptr elem_view]. do 2 f_equal. unfold mul64.
    rewrite <- w64_mul_l, elem_view_total. rewrite <- (w64_mul_l (total_size (elem_view sz ptr e es))), elem_view_total. now rewrite V. }
  change (Proxy ptr (top_desc sz e' (elem_descs sz es'))) with (elem_view sz ptr e' es') in *.
  split; [unfold extents; rewrite elem_view_sizes; now rewrite M1|]. split; [exact C'|].
  split; [congruence|]. rewrite W, W', T, T' in E. injection E as E. rewrite M1 in E. exact E.
Qed.
Print Assumptions C56_reshape_keeps_the_sequence.

Example C56_example :
  let v := elem_view 4 4096 2 [(3, 3)] in let r := reshape 4 v 3 [2] in
  view_continuous 4 v = true /\ extents r = [3; 2] /\
  traverse Strided 4 10 4096 (p_descs r) = traverse Strided 4 10 4096 (p_descs v) /\
  nested Strided 4 r [2; 1] = nested Strided 4 v [1; 2].
Proof. cbn zeta. repeat split; vm_compute; reflexivity. Qed.
