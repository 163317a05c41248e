(* Samplers: where load and at read. *)
From Coq Require Import List Bool NArith ZArith Lia Arith.
From Verif Require Import NdModel NdSpec NdProofs NdAccess NdIter.
Import ListNotations.
Local Open Scope N_scope.
Set Default Proof Using "Type".

Definition sizes (p : proxy) : list N := map d_size (p_descs p).

Fixpoint eff (s : sampler) (ns : list N) (dim : nat) (is : list Z) : list N :=
  match ns, is with
  | n :: ns', i :: r => s_transform s dim (s_index s i) n :: eff s ns' (S dim) r
  | _, _ => []
  end.
Fixpoint chk (s : sampler) (ns : list N) (dim : nat) (is : list Z) : bool :=
  match ns, is with
  | n :: ns', i :: r => s_check s dim (s_index s i) n && chk s ns' (S dim) r
  | _, _ => true
  end.

Lemma eff_length s ns : forall dim is, length ns = length is -> length (eff s ns dim is) = length is.
Proof. induction ns; intros dim [|i is] L; try discriminate; cbn; [reflexivity|]. f_equal. apply IHns. cbn in L. lia. Qed.

Lemma size_nth p dim n ns : skipn dim (sizes p) = n :: ns -> size p dim = n.
Proof.
  unfold size, sizes. revert dim. induction (p_descs p) as [|d ds IH]; intros [|dim] H; cbn in *; try discriminate.
  - now injection H.
  - apply IH. exact H.
Qed.
Lemma skipn_next {A} dim (l : list A) n ns : skipn dim l = n :: ns -> skipn (S dim) l = ns.
Proof. revert l. induction dim; intros [|x l] H; cbn in *; try discriminate; [now injection H|]. now apply IHdim. Qed.

Lemma check_bounds_chk s p : forall is dim ns, skipn dim (sizes p) = ns -> length is = length ns ->
  check_bounds s p dim is = chk s ns dim is.
Proof.
  induction is as [|i is IH]; intros dim ns E L; [now destruct ns|].
  destruct ns as [|n ns]; [discriminate|]. cbn in L.
  pose proof (size_nth _ _ _ _ E) as En. pose proof (skipn_next _ _ _ _ E) as E'.
  destruct is as [|j is].
  - destruct ns; [|discriminate]. cbn. now rewrite En, andb_true_r.
  - change (check_bounds s p dim (i :: j :: is)) with
      (s_check s dim (s_index s i) (size p dim) && check_bounds s p (S dim) (j :: is)).
    rewrite (IH (S dim) ns E') by lia. now rewrite En.
Qed.

Lemma fetch_continuous_dot s sz p : forall is dim off ns, skipn dim (sizes p) = ns -> length is = length ns -> is <> [] ->
  fetch_continuous s sz p dim off is = w64 (p_ptr p + (off * volume (tl ns) + row_major ns (eff s ns dim is)) * sz).
Proof.
  induction is as [|i is IH]; intros dim off ns E L Ne; [congruence|].
  destruct ns as [|n ns]; [discriminate|]. cbn in L.
  pose proof (size_nth _ _ _ _ E) as En. pose proof (skipn_next _ _ _ _ E) as E'.
  set (t := s_transform s dim (s_index s i) n).
  destruct is as [|j is].
  - destruct ns; [|discriminate]. cbn [fetch_continuous tl volume eff row_major]. rewrite En. fold t.
    unfold add64, mul64. rewrite w64_add_r, <- w64_add_r, w64_mul_l, w64_add_r. f_equal. lia.
  - destruct ns as [|m ns]; [discriminate|].
    change (fetch_continuous s sz p dim off (i :: j :: is)) with
      (fetch_continuous s sz p (S dim) (mul64 (add64 off (s_transform s dim (s_index s i) (size p dim))) (size p (S dim))) (j :: is)).
    rewrite (IH (S dim) _ (m :: ns) E') by (cbn in *; (lia || discriminate)).
    rewrite En, (size_nth _ _ _ _ E'). fold t.
    change (row_major (n :: m :: ns) (eff s (n :: m :: ns) dim (i :: j :: is))) with
      (t * volume (m :: ns) + row_major (m :: ns) (eff s (m :: ns) (S dim) (j :: is))).
    set (r := row_major (m :: ns) _). clearbody r. cbn [tl volume]. set (v := volume ns). clearbody v.
    unfold add64, mul64. rewrite w64_mul_l.
    assert (Q : forall x, w64 (p_ptr p + (w64 x * v + r) * sz) = w64 (p_ptr p + (x * v + r) * sz)).
    { intros x.
      assert (Q1 : w64 (w64 x * v + r) = w64 (x * v + r)) by (rewrite <- w64_add_l, w64_mul_l; apply w64_add_l).
      rewrite <- w64_add_r, <- w64_mul_l, Q1, w64_mul_l. apply w64_add_r. }
    rewrite Q. f_equal. lia.
Qed.

Lemma fetch_strided_nested s sz :
  forall is p dim, length is = length (p_descs p) -> is <> [] ->
  fetch_strided s sz p dim is = nested Strided sz p (eff s (sizes p) dim is).
Proof.
  induction is as [|i is IH]; intros p dim L Ne; [congruence|].
  destruct p as [ptr ds]. cbn [p_descs] in L. destruct ds as [|d ds]; [discriminate|]. cbn in L.
  destruct is as [|j is].
  - destruct ds; [|discriminate]. reflexivity.
  - destruct ds as [|d' ds]; [discriminate|].
    change (fetch_strided s sz (Proxy ptr (d :: d' :: ds)) dim (i :: j :: is)) with
      (fetch_strided s sz (sub_view Strided sz (Proxy ptr (d :: d' :: ds)) (s_transform s dim (s_index s i) (d_size d))) (S dim) (j :: is)).
    rewrite IH; [|cbn in *; lia|discriminate]. reflexivity.
Qed.
Lemma fetch_one s sz p i : length (p_descs p) = 1%nat ->
  fetch_continuous s sz p 0 0 [i] = fetch_strided s sz p 0 [i].
Proof.
  intros L. cbn. unfold elem, add64, mul64. rewrite !w64_add_r. rewrite <- w64_add_r, w64_mul_l, w64_add_r. reflexivity.
Qed.

(* reading a container with in-range effective indices *)
Lemma fetch_plain s sz ptr e ext is : length is = S (length ext) ->
  fetch Plain s sz (vector_proxy ptr (e :: ext)) is =
  nested Plain sz (vector_proxy ptr (e :: ext)) (eff s (e :: ext) 0 is).
Proof.
  intros L. cbn [fetch]. rewrite vector_dot by (rewrite eff_length; [exact L|now cbn]).
  rewrite (fetch_continuous_dot s sz _ is 0 0 (e :: ext)); [now rewrite N.mul_0_l| |now cbn|now destruct is].
  apply (vector_sizes ptr (e :: ext)).
Qed.

Lemma fetch_any k s sz p is :
  length is = length (p_descs p) -> is <> [] ->
  (k = Plain -> exists ptr ext, p = vector_proxy ptr ext) ->
  fetch k s sz p is = nested k sz p (eff s (sizes p) 0 is).
Proof.
  intros L Ne K. destruct k.
  - destruct (K eq_refl) as (ptr & ext & ->). unfold sizes. rewrite vector_sizes.
    cbn [vector_proxy p_descs] in L. rewrite plain_length in L.
    destruct ext as [|e ext]; [destruct is; [congruence|discriminate]|]. apply fetch_plain. exact L.
  - rewrite <- fetch_strided_nested by assumption. destruct is as [|i [|j is]]; [congruence| |reflexivity].
    cbn [fetch]. apply fetch_one. now symmetry.
Qed.

Lemma to_i32_id z : int32 z -> to_i32 z = z.
Proof. unfold int32, to_i32. intros H. rewrite Z.mod_small by lia. lia. Qed.
Lemma as_size_id z : uint64 z -> as_size z = z.
Proof. unfold uint64, as_size. intros H. now apply Z.mod_small. Qed.
Lemma to_u64_id z : uint64 z -> to_u64 z = Z.to_N z.
Proof. unfold uint64, to_u64. intros H. now rewrite Z.mod_small. Qed.

Lemma eff_clamp ns : forall dim is, length ns = length is -> Forall (fun n => 0 < n < 2 ^ 64) ns -> Forall int32 is ->
  eff sampler_clamp ns dim is = map (fun '(n, i) => nearest n i) (combine ns is).
Proof.
  induction ns as [|n ns IH]; intros dim [|i is] L P I; try discriminate; [reflexivity|].
  inversion P as [|? ? Pn P']; subst. inversion I as [|? ? Ii I']; subst.
  cbn [eff combine map]. f_equal; [|apply IH; [cbn in L; lia|assumption|assumption]].
  cbn [s_transform s_index sampler_clamp]. rewrite to_i32_id by exact Ii. unfold int32 in Ii.
  rewrite to_u64_id by (unfold uint64; lia).
  replace (n + (2 ^ 64 - 1)) with (n - 1 + 1 * 2 ^ 64) by lia.
  unfold w64. rewrite N.mod_add by discriminate. rewrite N.mod_small by lia.
  unfold nearest. lia.
Qed.

Lemma chk_clamp ns : forall dim is, chk sampler_clamp ns dim is = true.
Proof. induction ns; intros dim [|i is]; cbn; auto. Qed.
Lemma chk_no_check ns : forall dim is, chk sampler_no_check ns dim is = true.
Proof. induction ns; intros dim [|i is]; cbn; auto. Qed.

Lemma inside_range ns is : inside ns is -> in_range ns (map Z.to_N is).
Proof. intros H. induction H; cbn; constructor; [lia|assumption]. Qed.

Lemma chk_zero ns : forall dim is, length ns = length is -> Forall (fun n => n < 2 ^ 64) ns -> Forall int32 is ->
  chk sampler_zero ns dim is = true <-> inside ns is.
Proof.
  induction ns as [|n ns IH]; intros dim [|i is] L P I; try discriminate; [split; [constructor|reflexivity]|].
  inversion P as [|? ? Pn P']; subst. inversion I as [|? ? Ii I']; subst.
  cbn [chk]. rewrite andb_true_iff, IH by (assumption || (cbn in L; lia)).
  cbn [s_check s_index sampler_zero]. rewrite to_i32_id by exact Ii. unfold int32 in Ii.
  rewrite andb_true_iff, Z.leb_le, N.ltb_lt. split.
  - intros [[H1 H2] H3]. rewrite to_u64_id in H2 by (unfold uint64; lia). constructor; [lia|exact H3].
  - intros H. inversion H; subst. rewrite to_u64_id by (unfold uint64; lia). repeat split; (lia || assumption).
Qed.

Lemma chk_default ns : forall dim is, length ns = length is -> Forall uint64 is ->
  chk sampler_default ns dim is = true <-> inside ns is.
Proof.
  induction ns as [|n ns IH]; intros dim [|i is] L I; try discriminate; [split; [constructor|reflexivity]|].
  inversion I as [|? ? Ii I']; subst.
  cbn [chk]. rewrite andb_true_iff, IH by (assumption || (cbn in L; lia)).
  cbn [s_check s_index sampler_default]. rewrite as_size_id by exact Ii. unfold uint64 in Ii.
  rewrite Z.ltb_lt. split.
  - intros [H1 H2]. constructor; [lia|exact H2].
  - intros H. inversion H; subst. split; [lia|assumption].
Qed.

Lemma eff_zero ns : forall dim is, length ns = length is -> Forall int32 is -> inside ns is ->
  eff sampler_zero ns dim is = map Z.to_N is.
Proof.
  induction ns as [|n ns IH]; intros dim [|i is] L I H; try discriminate; [reflexivity|].
  inversion I as [|? ? Ii I']; subst. inversion H; subst.
  cbn [eff map]. f_equal; [|apply IH; [cbn in L; lia|assumption|assumption]].
  cbn [s_transform s_index sampler_zero]. rewrite to_i32_id by exact Ii. unfold plain_transform.
  apply to_u64_id. unfold uint64, int32 in *. lia.
Qed.

Lemma eff_sizet s ns : s_index s = as_size -> s_transform s = plain_transform ->
  forall dim is, length ns = length is -> Forall uint64 is -> eff s ns dim is = map Z.to_N is.
Proof.
  intros E1 E2. induction ns as [|n ns IH]; intros dim [|i is] L I; try discriminate; [reflexivity|].
  inversion I as [|? ? Ii I']; subst.
  cbn [eff map]. f_equal; [|apply IH; [cbn in L; lia|assumption]].
  rewrite E1, E2, as_size_id by exact Ii. now apply to_u64_id.
Qed.

Lemma nearest_in_range ns is : length ns = length is -> Forall (fun n => 0 < n) ns ->
  in_range ns (map (fun '(n, i) => nearest n i) (combine ns is)).
Proof.
  revert is. induction ns as [|n ns IH]; intros [|i is] L P; try discriminate; [constructor|].
  inversion P; subst. cbn. constructor; [unfold nearest; lia|]. apply IH; [cbn in L; lia|assumption].
Qed.

Section Loads.
Variables (k : kind) (sz : N) (p : proxy).
Hypothesis K : k = Plain -> exists ptr ext, p = vector_proxy ptr ext.
Hypothesis Nz : p_descs p <> [].

Lemma sizes_length : length (sizes p) = length (p_descs p).
Proof. apply map_length. Qed.
Lemma args_ne (is : list Z) : length is = length (sizes p) -> is <> [].
Proof using Nz.
  intros L ->. rewrite sizes_length in L. destruct (p_descs p); [congruence|discriminate].
Qed.

Lemma load_clamp is : length is = length (sizes p) -> Forall (fun n => 0 < n < 2 ^ 64) (sizes p) -> Forall int32 is ->
  load k sampler_clamp sz p is = At (nested k sz p (map (fun '(n, i) => nearest n i) (combine (sizes p) is))) /\
  at_ k sampler_clamp sz p is = load k sampler_clamp sz p is.
Proof using K Nz.
  intros L P I. unfold load, at_. rewrite (check_bounds_chk sampler_clamp p is 0 (sizes p) eq_refl L), chk_clamp.
  split; [|reflexivity]. f_equal. rewrite fetch_any; [|now rewrite <- sizes_length|now apply args_ne|exact K].
  f_equal. apply eff_clamp; [now symmetry|exact P|exact I].
Qed.

Lemma load_zero is : length is = length (sizes p) -> Forall (fun n => n < 2 ^ 64) (sizes p) -> Forall int32 is ->
  (inside (sizes p) is -> load k sampler_zero sz p is = At (nested k sz p (map Z.to_N is)) /\
                          at_ k sampler_zero sz p is = At (nested k sz p (map Z.to_N is))) /\
  (~ inside (sizes p) is -> load k sampler_zero sz p is = Boundary /\ at_ k sampler_zero sz p is = OutOfRange).
Proof using K Nz.
  intros L P I. unfold load, at_. rewrite (check_bounds_chk sampler_zero p is 0 (sizes p) eq_refl L).
  pose proof (chk_zero (sizes p) 0 is (eq_sym L) P I) as C. split; intros H.
  - rewrite (proj2 C H).
    assert (E : fetch k sampler_zero sz p is = nested k sz p (map Z.to_N is)).
    { rewrite fetch_any; [|now rewrite <- sizes_length|now apply args_ne|exact K].
      f_equal. apply eff_zero; [now symmetry|exact I|exact H]. }
    now rewrite E.
  - destruct (chk sampler_zero (sizes p) 0 is); [exfalso; tauto|]. split; reflexivity.
Qed.

Lemma load_default is : length is = length (sizes p) -> Forall uint64 is ->
  (inside (sizes p) is -> load k sampler_default sz p is = At (nested k sz p (map Z.to_N is)) /\
                          at_ k sampler_default sz p is = At (nested k sz p (map Z.to_N is))) /\
  (~ inside (sizes p) is -> load k sampler_default sz p is = OutOfRange /\ at_ k sampler_default sz p is = OutOfRange).
Proof using K Nz.
  intros L I. unfold load, at_. rewrite (check_bounds_chk sampler_default p is 0 (sizes p) eq_refl L).
  pose proof (chk_default (sizes p) 0 is (eq_sym L) I) as C. split; intros H.
  - rewrite (proj2 C H).
    assert (E : fetch k sampler_default sz p is = nested k sz p (map Z.to_N is)).
    { rewrite fetch_any; [|now rewrite <- sizes_length|now apply args_ne|exact K].
      f_equal. apply eff_sizet; [reflexivity|reflexivity|now symmetry|exact I]. }
    now rewrite E.
  - destruct (chk sampler_default (sizes p) 0 is); [exfalso; tauto|]. split; reflexivity.
Qed.

(* a negative argument of sampler_default becomes a huge index *)
Lemma default_negative is : length is = length (sizes p) -> Forall (fun n => n <= 2 ^ 63) (sizes p) ->
  Forall (fun i => (- 2 ^ 63 <= i < 2 ^ 63)%Z) is -> Exists (fun i => (i < 0)%Z) is ->
  load k sampler_default sz p is = OutOfRange.
Proof using K Nz.
  intros L P I X. unfold load. rewrite (check_bounds_chk sampler_default p is 0 (sizes p) eq_refl L).
  assert (C : chk sampler_default (sizes p) 0 is = false); [|now rewrite C].
  clear K Nz. revert L P I X. generalize (sizes p) as ns. generalize 0%nat as dim. induction is as [|i is IH]; intros dim ns L P I X; [inversion X|].
  destruct ns as [|n ns]; [discriminate|]. cbn [chk].
  inversion P as [|? ? Pn P']; subst. inversion I as [|? ? Ii I']; subst.
  apply andb_false_iff. inversion X as [? ? H|? ? H]; subst.
  - left. cbn [s_check s_index sampler_default]. apply Z.ltb_ge. unfold as_size.
    rewrite <- (Z_mod_plus_full i 1 (2 ^ 64)), Z.mod_small by lia. lia.
  - right. apply IH; [cbn in L; lia|assumption|assumption|assumption].
Qed.

Lemma load_no_check is : length is = length (sizes p) -> Forall uint64 is ->
  load k sampler_no_check sz p is = At (nested k sz p (map Z.to_N is)).
Proof using K Nz.
  intros L I. unfold load. rewrite (check_bounds_chk sampler_no_check p is 0 (sizes p) eq_refl L), chk_no_check.
  f_equal. rewrite fetch_any; [|now rewrite <- sizes_length|now apply args_ne|exact K].
  f_equal. apply eff_sizet; [reflexivity|reflexivity|now symmetry|exact I].
Qed.
End Loads.
