(* C97: a debug build keeps programs on views inside the view they started with. *)
From Coq Require Import List NArith ZArith Bool Lia Arith.
From Verif Require Import NdModel NdSpec NdProofs NdAccess NdSampler NdProps DviewModel DviewSpec DviewProofs DviewInv.
Import ListNotations.
Local Open Scope N_scope.

(* A debug build stops, or it does what a release build does. *)
Theorem C97_same_as_release sz fuel o l u :
  program true sz fuel o l u = Stop \/ program true sz fuel o l u = program false sz fuel o l u.
Proof. apply agrees_program. Qed.
Print Assumptions C97_same_as_release.

Example C97_same_as_release_example :
  let v := View (elem_view 4 4096 2 [(3, 5)]) in
  program true 4 10 v [Sub 1] (Elem 3) = Stop /\ program false 4 10 v [Sub 1] (Elem 3) = Go [4128] /\
  program true 4 10 v [Sub 1] (Elem 2) = Go [4124] /\ program true 4 10 v [Sub 1; AsView; Reshape 3 [1]; Sub 2] (Elem 0) = Go [4124].
Proof. repeat split. Qed.

Lemma offset_dot sz is : forall ss, length is = S (length ss) -> offset sz ss is = dot is (esteps sz ss).
Proof.
  induction is as [|i is IH]; intros [|s ss] L; cbn in L; try discriminate.
  - destruct is; [|discriminate]. reflexivity.
  - destruct is as [|j is]; [discriminate|].
    cbn [offset esteps tl]. change (dot (i :: j :: is) (stored sz (s :: ss) :: esteps sz ss))
      with (i * stored sz (s :: ss) + dot (j :: is) (esteps sz ss)).
    f_equal. apply (IH ss). cbn in *. lia.
Qed.
Lemma new_elem_some sz ptr e es v : new_elem true sz ptr e es = Go v ->
  v = elem_view sz ptr e es /\ Forall (fun x => fst x <= snd x) es.
Proof.
  unfold new_elem, requires. destruct (forallb _ es) eqn:F; [|discriminate]. cbn. intros H. injection H as <-.
  split; [reflexivity|]. rewrite forallb_forall in F. apply Forall_forall. intros x I. now apply N.leb_le, F.
Qed.

(* A view is constructed exactly if each stride is at least the extent below it. *)
Theorem C97_constructed sz ptr e es :
  (Forall (fun x => fst x <= snd x) es -> new_elem true sz ptr e es = Go (elem_view sz ptr e es)) /\
  (~ Forall (fun x => fst x <= snd x) es -> new_elem true sz ptr e es = Stop).
Proof.
  unfold new_elem, requires. destruct (forallb _ es) eqn:F; cbn; split; intros H; try reflexivity.
  - exfalso. apply H. rewrite forallb_forall in F. apply Forall_forall. intros x I. now apply N.leb_le, F.
  - exfalso. apply not_true_iff_false in F. apply F, forallb_forall. intros x I. apply N.leb_le.
    eapply Forall_forall in H; eauto.
Qed.
Print Assumptions C97_constructed.

Example C97_constructed_example :
  new_elem true 4 4096 2 [(3, 5); (2, 2)] = Go (elem_view 4 4096 2 [(3, 5); (2, 2)]) /\
  new_elem true 4 4096 2 [(3, 5); (2, 1)] = Stop.
Proof. split; reflexivity. Qed.

(* A program that starts with a view the constructor has accepted, takes rows, makes
   views of rows and reshapes views in any order, and then reads by brackets, by at
   or load with a checking sampler or in a loop: in a debug build it is stopped or
   throws or gets the boundary value, or it touches cells of the first view only,
   and then does just what the release build does.  No loop runs on. *)
Theorem C97_confined sz fuel ptr e es v l u :
  0 < sz -> new_elem true sz ptr e es = Go v -> ptr + e * stored sz (map snd es) < 2 ^ 64 ->
  fits fuel (e :: map fst es) ->
  (forall e' ext, In (Reshape e' ext) l -> volume (e' :: ext) < 2 ^ 64 /\ fits fuel (e' :: ext)) ->
  (forall is, u <> At_ NoCheck is /\ u <> Load NoCheck is) ->
  match program true sz fuel (View v) l u with
  | Go touched => Forall (cell sz ptr e es) touched /\ program false sz fuel (View v) l u = Go touched
  | Endless => False
  | Stop | Thrown | Padding | NoCompile => True
  end.
Proof.
  intros Hz H B F Sf Nc. apply new_elem_some in H. destruct H as [-> S].
  pose proof (good_program sz fuel (cell sz ptr e es) (View (elem_view sz ptr e es)) l u Hz) as P.
  destruct (program true _ _ _ _ _); try exact I; apply P; try assumption.
  all: try (destruct u as [?|w is|w is| |]; cbn; try discriminate; intros X; injection X as ->; now destruct (Nc is)).
  all: apply good_elem; try assumption; intros is R; exists is; (split; [exact R|]);
    (rewrite offset_dot; [reflexivity|]); apply in_range_length in R; cbn in R; rewrite map_length in *; lia.
Qed.
Print Assumptions C97_confined.

(* Three rows of two with strides of four, the second row as a view, reshaped into a
   column, walked through. *)
Example C97_confined_example :
  let v := elem_view 2 1000 2 [(3, 3); (2, 4)] in
  new_elem true 2 1000 2 [(3, 3); (2, 4)] = Go v /\
  program true 2 20 (View v) [Sub 1; Sub 2; AsView; Reshape 2 [1]] NestedLoop = Go [1040; 1042] /\
  program true 2 20 (View v) [Sub 1] PlainLoop = Stop /\
  program true 2 20 (View v) [Sub 1] (Load Clamp [7; -1]%Z) = Go [1040] /\
  program true 2 20 (View v) [Sub 1] (Load Zero [3; 0]%Z) = Padding /\
  program true 2 20 (View v) [Sub 1] (At_ ByDefault [3; 0]%Z) = Thrown /\
  cell 2 1000 2 [(3, 3); (2, 4)] 1042.
Proof. cbn zeta. repeat split. exists [1; 2; 1]. split; [repeat constructor|reflexivity]. Qed.

(* The same for a vector of many dimensions. *)
Theorem C97_confined_vector sz fuel ptr e ext l u :
  0 < sz -> ptr + volume (e :: ext) * sz < 2 ^ 64 -> fits fuel (e :: ext) ->
  (forall e' ext', In (Reshape e' ext') l -> volume (e' :: ext') < 2 ^ 64 /\ fits fuel (e' :: ext')) ->
  (forall is, u <> At_ NoCheck is /\ u <> Load NoCheck is) ->
  let o := Row Plain (vector_proxy ptr (e :: ext)) in
  match program true sz fuel o l u with
  | Go touched => Forall (vector_cell sz ptr (e :: ext)) touched /\ program false sz fuel o l u = Go touched
  | Endless => False
  | Stop | Thrown | Padding | NoCompile => True
  end.
Proof.
  intros Hz B F Sf Nc. cbn zeta.
  pose proof (good_program sz fuel (vector_cell sz ptr (e :: ext)) (Row Plain (vector_proxy ptr (e :: ext))) l u Hz) as P.
  destruct (program true _ _ _ _ _); try exact I; apply P; try assumption.
  all: try (destruct u as [?|w is|w is| |]; cbn; try discriminate; intros X; injection X as ->; now destruct (Nc is)).
  all: apply good_vector; try assumption; intros i Hi; now exists i.
Qed.
Print Assumptions C97_confined_vector.

Example C97_confined_vector_example :
  let o := Row Plain (vector_proxy 1000 [2; 3; 2]) in
  program true 2 20 o [AsView; Reshape 4 [3]; Sub 3] PlainLoop = Go [1018; 1020; 1022] /\
  program true 2 20 o [AsView; Reshape 4 [4]; Sub 3] PlainLoop = Stop /\
  program true 2 20 o [Sub 1] (Load Clamp [7; 7]%Z) = Go [1022].
Proof. cbn zeta. repeat split. Qed.

(* Brackets are stopped exactly when an index is out of range. *)
Theorem C97_brackets sz o is :
  length is = dims o -> is <> [] ->
  brackets false sz o is = Go (nested (kind_of o) sz (proxy_of o) is) /\
  (in_range (sizes (proxy_of o)) is -> brackets true sz o is = brackets false sz o is) /\
  (~ in_range (sizes (proxy_of o)) is -> brackets true sz o is = Stop).
Proof.
  intros L Ne. destruct (brackets_spec sz is o L Ne) as [D R]. split; [exact R|]. rewrite D, R.
  pose proof (in_rangeb_spec (sizes (proxy_of o)) is) as X. destruct (in_rangeb _ _); split; intros H; try reflexivity; exfalso.
  - apply H. now apply X.
  - apply X in H. discriminate.
Qed.
Print Assumptions C97_brackets.

Example C97_brackets_example :
  let o := View (elem_view 4 4096 2 [(3, 5)]) in
  brackets true 4 o [1; 2] = Go 4124 /\ brackets true 4 o [2; 0] = Stop /\ brackets true 4 o [0; 3] = Stop.
Proof. repeat split. Qed.

(* plain_range of a view just constructed goes through exactly if there are no gaps:
   every stride is the extent below it. *)
Lemma stored_dense sz es : 0 < sz -> Forall (fun x => fst x <= snd x) es -> Forall (fun x => 0 < x) (map fst es) ->
  volume (map fst es) * sz = stored sz (map snd es) -> map fst es = map snd es.
Proof.
  intros Hz S P. induction S as [|[x s] es H S IH]; intros E; [reflexivity|].
  cbn [map fst snd volume stored] in *. inversion P as [|? ? Px P']; subst.
  pose proof (volume_le_stored sz _ _ (Forall2_map_pairs _ _ S)) as V.
  pose proof (volume_pos _ P') as Pv. rewrite <- N.mul_assoc in E.
  set (v := volume (map fst es) * sz) in *. set (t := stored sz (map snd es)) in *. assert (0 < v) by (unfold v; nia).
  assert (x = s) by nia. subst s. f_equal. apply IH; [exact P'|]. fold t. nia.
Qed.
Theorem C97_plain_range sz fuel ptr e es v :
  0 < sz -> new_elem true sz ptr e es = Go v -> ptr + e * stored sz (map snd es) < 2 ^ 64 ->
  fits fuel (e :: map fst es) -> Forall (fun x => 0 < x) (e :: map fst es) ->
  (map fst es = map snd es ->
     plain_loop true sz fuel (View v) = Go (map (fun i => ptr + i * sz) (upto (volume (e :: map fst es))))) /\
  (map fst es <> map snd es -> plain_loop true sz fuel (View v) = Stop).
Proof.
  intros Hz H B F P. apply new_elem_some in H. destruct H as [-> S]. inversion P as [|? ? Pe P']; subst.
  pose proof (volume_le_stored sz _ _ (Forall2_map_pairs _ _ S)) as V.
  assert (T : mul64 (total_size (elem_view sz ptr e es)) sz = volume (e :: map fst es) * sz).
  { unfold mul64. rewrite <- w64_mul_l, elem_view_total, w64_mul_l. apply w64_small. cbn [volume]. nia. }
  pose proof (elem_view_stored sz ptr e es ltac:(lia)) as St. unfold total_stored, bytes, offset_to_bytes in St.
  assert (C : view_continuous sz (elem_view sz ptr e es) = true <-> map fst es = map snd es).
  { unfold view_continuous. rewrite T, St, N.eqb_eq. cbn [volume]. split; intros E.
    - apply (stored_dense sz); try assumption. nia.
    - rewrite <- E, stored_volume. lia. }
  unfold plain_loop, continuous, requires. split; intros E.
  - rewrite (proj2 C E). cbn [andb negb]. unfold plain_walk. cbn [proxy_of].
    replace (mul64 (total_size (elem_view sz ptr e es)) sz) with (mul64 (volume (e :: map fst es)) sz).
    + rewrite walk_upto; [reflexivity|exact Hz|apply F|]. cbn [p_ptr elem_view volume]. nia.
    + rewrite T. unfold mul64. apply w64_small. cbn [volume]. nia.
  - destruct (view_continuous _ _) eqn:X; [|reflexivity]. exfalso. apply E, C. reflexivity.
Qed.
Print Assumptions C97_plain_range.

Example C97_plain_range_example :
  plain_loop true 4 10 (View (elem_view 4 4096 2 [(3, 3)])) = Go [4096; 4100; 4104; 4108; 4112; 4116] /\
  plain_loop true 4 10 (View (elem_view 4 4096 2 [(3, 4)])) = Stop.
Proof. split; reflexivity. Qed.

(* Samplers: those that check are never stopped; sampler_clamp is stopped exactly on a container
   with an empty dimension; sampler_no_check is stopped out of range on
   strided containers of two dimensions or more, and on the others never. *)
Lemma get_release w sz o is : length is = dims o -> is <> [] -> proper o ->
  get false w sz o is = Go (nested (kind_of o) sz (proxy_of o) (eff (sampler_of w) (sizes (proxy_of o)) 0 is)).
Proof.
  intros L Ne Pr. pose proof (fetch_any (kind_of o) (sampler_of w) sz (proxy_of o) is L Ne Pr) as F. rewrite <- F.
  assert (C : forall is dim off, is <> [] -> get_continuous false w sz (proxy_of o) dim off is =
    Go (fetch_continuous (sampler_of w) sz (proxy_of o) dim off is)).
  { clear. intros is. induction is as [|i [|j is] IH]; intros dim off Ne; [congruence|reflexivity|].
    change (get_continuous false w sz (proxy_of o) (S dim)
      (mul64 (add64 off (s_transform (sampler_of w) dim (s_index (sampler_of w) i) (size (proxy_of o) dim))) (size (proxy_of o) (S dim))) (j :: is) =
      Go (fetch_continuous (sampler_of w) sz (proxy_of o) (S dim)
      (mul64 (add64 off (s_transform (sampler_of w) dim (s_index (sampler_of w) i) (size (proxy_of o) dim))) (size (proxy_of o) (S dim))) (j :: is))).
    now apply IH. }
  assert (D : forall is o dim, length is = dims o -> is <> [] -> kind_of o = Strided ->
    get_strided false w sz o dim is = Go (fetch_strided (sampler_of w) sz (proxy_of o) dim is)).
  { clear. intros is. induction is as [|i is IH]; intros o dim L Ne K; [congruence|]. unfold dims in L.
    destruct (p_descs (proxy_of o)) as [|d ds] eqn:E; [discriminate|]. cbn [get_strided requires andb]. cbn zeta.
    destruct is as [|i' is].
    - destruct ds; [|discriminate]. unfold element. rewrite E. reflexivity.
    - destruct ds as [|d' ds]; [discriminate|]. unfold subscript. rewrite E. cbn [requires andb then_].
      rewrite IH; [rewrite K; reflexivity| |discriminate|exact K]. unfold dims. cbn [proxy_of]. unfold sub_view. rewrite E. cbn in *. lia. }
  unfold get, fetch. destruct (kind_of o) eqn:K; [now apply C|].
  destruct is as [|i [|j is]]; [congruence|now apply C|now apply D].
Qed.
Lemma loads_differ w sz o is : length is = dims o -> check_bounds (sampler_of w) (proxy_of o) 0 is = true ->
  forall d, load_by d w sz o is = get d w sz o is /\ at_by d w sz o is = get d w sz o is.
Proof. intros L C d. unfold load_by, at_by. rewrite L, Nat.eqb_refl, C. split; reflexivity. Qed.
Lemma dims_ne (is : list Z) o : length is = dims o -> (0 < dims o)%nat -> is <> [].
Proof. intros L P ->. cbn in L. lia. Qed.

Theorem C97_checking_samplers sz o w is :
  w = ByDefault \/ w = Zero -> (0 < dims o)%nat ->
  (kind_of o = Plain -> exists ptr ext, proxy_of o = vector_proxy ptr ext) ->
  load_by true w sz o is = load_by false w sz o is /\ at_by true w sz o is = at_by false w sz o is.
Proof.
  intros W D Pr. destruct (length is =? dims o)%nat eqn:L; [|unfold load_by, at_by; rewrite L; now split].
  apply Nat.eqb_eq in L. pose proof (dims_ne _ _ L D) as Ne.
  destruct (check_bounds (sampler_of w) (proxy_of o) 0 is) eqn:C.
  2:{ unfold load_by, at_by. rewrite L, Nat.eqb_refl, C. now split. }
  destruct (loads_differ w sz o is L C true) as [-> ->]. destruct (loads_differ w sz o is L C false) as [-> ->].
  assert (L' : length is = length (sizes (proxy_of o))) by (rewrite sizes_length; exact L).
  rewrite (check_bounds_chk _ _ is 0 (sizes (proxy_of o)) eq_refl L') in C.
  rewrite get_release, get_spec by assumption. rewrite needs_true by (destruct W; congruence).
  assert (R : in_rangeb (sizes (proxy_of o)) (eff (sampler_of w) (sizes (proxy_of o)) 0 is) = true).
  { apply in_rangeb_spec. destruct W as [-> | ->]; [now apply eff_default_range|now apply eff_zero_range]. }
  rewrite R. destruct (kind_of o), is as [|? [|? ?]]; split; reflexivity.
Qed.
Print Assumptions C97_checking_samplers.

Example C97_checking_samplers_example :
  let o := View (elem_view 4 4096 2 [(3, 5)]) in
  load_by true Zero 4 o [1; 2]%Z = Go 4124 /\ load_by true Zero 4 o [1; 3]%Z = Padding /\
  at_by true ByDefault 4 o [2; 0]%Z = Thrown.
Proof. repeat split. Qed.

Theorem C97_clamp sz o is :
  (0 < dims o)%nat -> length is = dims o -> Forall (fun n => n < 2 ^ 64) (sizes (proxy_of o)) ->
  (kind_of o = Plain -> exists ptr ext, proxy_of o = vector_proxy ptr ext) ->
  (In 0 (sizes (proxy_of o)) -> load_by true Clamp sz o is = Stop) /\
  (~ In 0 (sizes (proxy_of o)) -> load_by true Clamp sz o is = load_by false Clamp sz o is).
Proof.
  intros D L S Pr. pose proof (dims_ne _ _ L D) as Ne.
  assert (L' : length is = length (sizes (proxy_of o))) by (rewrite sizes_length; exact L).
  assert (C : check_bounds (sampler_of Clamp) (proxy_of o) 0 is = true).
  { rewrite (check_bounds_chk _ _ is 0 (sizes (proxy_of o)) eq_refl L'). apply chk_clamp. }
  destruct (loads_differ Clamp sz o is L C true) as [-> _]. destruct (loads_differ Clamp sz o is L C false) as [-> _].
  rewrite get_release, get_spec by assumption. split; intros Z.
  - destruct (forallb (needs Clamp) _) eqn:N; [|reflexivity]. apply needs_clamp in N.
    eapply Forall_forall in N; [|exact Z]. lia.
  - assert (P : Forall (fun n => 0 < n) (sizes (proxy_of o))).
    { destruct (positive_or_zero (sizes (proxy_of o))) as [P|Z']; [exact P|tauto]. }
    rewrite (proj2 (needs_clamp _) P).
    assert (R : in_rangeb (sizes (proxy_of o)) (eff (sampler_of Clamp) (sizes (proxy_of o)) 0 is) = true).
    { apply in_rangeb_spec, eff_clamp_range; [exact L'|]. rewrite Forall_forall in *. intros n I. split; auto. }
    rewrite R. destruct (kind_of o), is as [|? [|? ?]]; reflexivity.
Qed.
Print Assumptions C97_clamp.

Example C97_clamp_example :
  load_by true Clamp 4 (View (elem_view 4 4096 2 [(3, 5)])) [-4; 9]%Z = Go 4104 /\
  load_by true Clamp 4 (View (elem_view 4 4096 2 [(0, 5)])) [1; 0]%Z = Stop /\
  load_by false Clamp 4 (View (elem_view 4 4096 2 [(0, 5)])) [1; 0]%Z = Go 4116.
Proof. repeat split. Qed.

(* sampler_no_check with indices of type size_t *)
Theorem C97_no_check sz o is :
  (0 < dims o)%nat -> length is = dims o -> Forall (fun i => (0 <= i < 2 ^ 64)%Z) is ->
  (kind_of o = Plain -> exists ptr ext, proxy_of o = vector_proxy ptr ext) ->
  (kind_of o = Strided -> (1 < dims o)%nat ->
     load_by true NoCheck sz o is = brackets true sz o (map Z.to_N is)) /\
  (kind_of o = Plain \/ dims o = 1%nat ->
     load_by true NoCheck sz o is = Go (nested (kind_of o) sz (proxy_of o) (map Z.to_N is))).
Proof.
  intros D L I Pr. pose proof (dims_ne _ _ L D) as Ne.
  assert (L' : length is = length (sizes (proxy_of o))) by (rewrite sizes_length; exact L).
  assert (C : check_bounds (sampler_of NoCheck) (proxy_of o) 0 is = true).
  { rewrite (check_bounds_chk _ _ is 0 (sizes (proxy_of o)) eq_refl L'). apply chk_no_check. }
  destruct (loads_differ NoCheck sz o is L C true) as [-> _].
  rewrite get_spec by assumption. rewrite needs_true by discriminate.
  rewrite (eff_sizet (sampler_of NoCheck)); [|reflexivity|reflexivity|symmetry; exact L'|exact I].
  split.
  - intros K Dm. assert (Lm : length (map Z.to_N is) = dims o) by (rewrite map_length; exact L).
    assert (Nm : map Z.to_N is <> []) by (destruct is; [congruence|discriminate]).
    rewrite (proj1 (brackets_spec sz _ o Lm Nm)). rewrite K.
    destruct is as [|? [|? ?]]; [congruence|cbn in L; lia|reflexivity].
  - intros [K|Dm]; [rewrite K; reflexivity|].
    destruct is as [|? [|? ?]]; [congruence| |cbn in L; lia]. now destruct (kind_of o).
Qed.
Print Assumptions C97_no_check.

Example C97_no_check_example :
  load_by true NoCheck 4 (View (elem_view 4 4096 2 [(3, 5)])) [1; 3]%Z = Stop /\
  load_by true NoCheck 4 (View (elem_view 4 4096 2 [(3, 5)])) [1; 2]%Z = Go 4124.
Proof. split; reflexivity. Qed.

(* So sampler_no_check leaves a vector, or a view of one dimension, even in a debug
   build. *)
Theorem C97_no_check_refuted :
  exists a b,
    load_by true NoCheck 4 (Row Plain (vector_proxy 4096 [2; 3])) [1; 3]%Z = Go a /\ ~ vector_cell 4 4096 [2; 3] a /\
    load_by true NoCheck 4 (View (elem_view 4 4096 3 [])) [3]%Z = Go b /\ ~ cell 4 4096 3 [] b.
Proof.
  exists 4120, 4108. split; [reflexivity|]. split.
  { intros (i & H & E). cbn in H. lia. }
  split; [reflexivity|]. intros (is & R & E). inversion R as [|? i ? is' Hi R']; subst. inversion R'; subst. cbn [offset map stored snd] in E. lia.
Qed.
Print Assumptions C97_no_check_refuted.

(* Strides in bytes are compared with extents in elements: a view can pass the
   constructor and let a plain loop touch what is no element of it.  Here two rows of
   two bytes lie three bytes apart in one plane of four bytes. *)
Theorem C97_byte_strides_refuted :
  exists v l, new_byte true 1 4096 1 [(2, 4); (2, 3)] = Go v /\
    plain_loop true 1 10 (View v) = Go l /\
    exists a, In a l /\ forall is, in_range [1; 2; 2] is -> nested Strided 1 v is <> a.
Proof.
  exists (byte_view 1 4096 1 [(2, 4); (2, 3)]), [4096; 4097; 4098; 4099].
  split; [reflexivity|]. split; [reflexivity|]. exists 4098. split; [cbn; tauto|].
  intros is R. inversion R as [|? i ? r Hi R1]; subst. inversion R1 as [|? j ? r1 Hj R2]; subst.
  inversion R2 as [|? m ? r2 Hm R3]; subst. inversion R3; subst.
  assert (i = 0) by lia. assert (Ej : j = 0 \/ j = 1) by lia. assert (Em : m = 0 \/ m = 1) by lia. subst i.
  destruct Ej as [-> | ->], Em as [-> | ->]; vm_compute; discriminate.
Qed.
Print Assumptions C97_byte_strides_refuted.

(* A plane without gaps inside but with a gap behind it: its plain_range is allowed,
   that of a view of it is stopped, though it would go over the same elements. *)
Theorem C97_view_of_plane_refuted :
  exists o l, continuous 4 o = true /\ continuous 4 (as_view 4 o) = false /\
    plain_loop true 4 20 o = Go l /\ plain_loop true 4 20 (as_view 4 o) = Stop /\
    plain_loop false 4 20 (as_view 4 o) = Go l /\
    do_steps true 4 (View (elem_view 4 4096 2 [(2, 3); (3, 3)])) [Sub 0] = Go o.
Proof.
  exists (Row Strided (sub_view Strided 4 (elem_view 4 4096 2 [(2, 3); (3, 3)]) 0)), [4096; 4100; 4104; 4108; 4112; 4116].
  repeat split.
Qed.
Print Assumptions C97_view_of_plane_refuted.

(* The total size compared by reshape is a product of size_t: an empty view can be
   given a shape whose 2^64 elements wrap to none, and indices then pass. *)
Theorem C97_wrapped_shape_refuted :
  exists v a, new_elem true 4 4096 0 [] = Go v /\
    program true 4 10 (View v) [Reshape (2 ^ 32) [2 ^ 32]; Sub 5] (Elem 7) = Go [a] /\
    (forall x, ~ cell 4 4096 0 [] x).
Proof.
  exists (elem_view 4 4096 0 []). eexists. split; [reflexivity|]. split; [vm_compute; reflexivity|].
  intros x (is & R & _). inversion R as [|? i ? r Hi _]; subst. lia.
Qed.
Print Assumptions C97_wrapped_shape_refuted.

(* Without the assertions it is the release build of C26: the same element, the
   boundary value or the exception. *)
Theorem C97_release sz o w is :
  (0 < dims o)%nat -> length is = dims o ->
  (kind_of o = Plain -> exists ptr ext, proxy_of o = vector_proxy ptr ext) ->
  load_by false w sz o is = match load (kind_of o) (sampler_of w) sz (proxy_of o) is with
                            | At a => Go a | Boundary => Padding | OutOfRange => Thrown end /\
  at_by false w sz o is = match at_ (kind_of o) (sampler_of w) sz (proxy_of o) is with
                          | At a => Go a | Boundary => Padding | OutOfRange => Thrown end.
Proof.
  intros D L Pr. pose proof (dims_ne _ _ L D) as Ne.
  unfold load_by, at_by, load, at_. rewrite L, Nat.eqb_refl. cbn [negb].
  destruct (check_bounds _ _ _ _); [|split; [destruct (s_boundary _)|]; reflexivity].
  rewrite get_release, fetch_any by assumption. split; reflexivity.
Qed.
Print Assumptions C97_release.

Example C97_release_example :
  let p := elem_view 4 4096 2 [(3, 5)] in
  load_by false Zero 4 (View p) [1; 2]%Z = Go 4124 /\ load Strided sampler_zero 4 p [1; 2]%Z = At 4124 /\
  load_by false Zero 4 (View p) [1; 3]%Z = Padding /\ load Strided sampler_zero 4 p [1; 3]%Z = Boundary.
Proof. repeat split. Qed.

(* A program of rows only is the brackets in a row. *)
Theorem C97_rows debug sz fuel is : forall o i,
  program debug sz fuel o (map Sub is) (Elem i) = then_ (brackets debug sz o (is ++ [i])) (fun a => Go [a]).
Proof.
  induction is as [|j is IH]; intros o i; [reflexivity|].
  unfold program in *. cbn [map do_steps do_step app].
  assert (B : brackets debug sz o (j :: is ++ [i]) = then_ (subscript debug sz o j) (fun o' => brackets debug sz o' (is ++ [i]))).
  { cbn [brackets]. destruct (is ++ [i]) eqn:E; [now destruct is|reflexivity]. }
  rewrite B. destruct (subscript debug sz o j) as [o'| | | | |]; cbn [then_]; try reflexivity. apply IH.
Qed.
Print Assumptions C97_rows.

Example C97_rows_example :
  let o := View (elem_view 4 4096 2 [(3, 3); (2, 5)]) in
  program true 4 10 o (map Sub [1; 2]) (Elem 1) = Go [4200] /\ brackets true 4 o [1; 2; 1] = Go 4200.
Proof. split; reflexivity. Qed.

(* reshape of a view just constructed succeeds exactly if there are no gaps and the
   number of elements stays; the elements then keep their order. *)
Theorem C97_reshape sz ptr e es v e' ext :
  0 < sz -> new_elem true sz ptr e es = Go v -> ptr + e * stored sz (map snd es) < 2 ^ 64 ->
  Forall (fun x => 0 < x) (e :: map fst es) -> volume (e' :: ext) < 2 ^ 64 ->
  (map fst es = map snd es /\ volume (e' :: ext) = volume (e :: map fst es) ->
     exists w, reshaped true sz (View v) e' ext = Go (View w) /\
       forall is, in_range (e' :: ext) is -> nested Strided sz w is = ptr + row_major (e' :: ext) is * sz) /\
  (map fst es <> map snd es \/ volume (e' :: ext) <> volume (e :: map fst es) ->
     reshaped true sz (View v) e' ext = Stop).
Proof.
  intros Hz H B P Vb. apply new_elem_some in H. destruct H as [-> S]. inversion P as [|? ? Pe P']; subst.
  pose proof (volume_le_stored sz _ _ (Forall2_map_pairs _ _ S)) as V.
  assert (T : mul64 (total_size (elem_view sz ptr e es)) sz = volume (e :: map fst es) * sz).
  { unfold mul64. rewrite <- w64_mul_l, elem_view_total, w64_mul_l. apply w64_small. cbn [volume]. nia. }
  pose proof (elem_view_stored sz ptr e es ltac:(lia)) as St. unfold total_stored, bytes, offset_to_bytes in St.
  assert (C : view_continuous sz (elem_view sz ptr e es) = true <-> map fst es = map snd es).
  { unfold view_continuous. rewrite T, St, N.eqb_eq. cbn [volume]. split; intros E.
    - apply (stored_dense sz); try assumption. nia.
    - rewrite <- E, stored_volume. lia. }
  assert (Vo : volume (e :: map fst es) < 2 ^ 64) by (cbn [volume] in *; nia).
  pose proof (elem_view_total sz ptr e es) as Tt. rewrite (w64_small _ Vo) in Tt.
  assert (Te : total_size (elem_view sz ptr e es) = volume (e :: map fst es)).
  { destruct es as [|[x s] es]; [cbn; lia|]. rewrite <- Tt. symmetry. unfold total_size, top, elem_view. cbn [p_descs].
    pose proof (elem_descs_facts sz ((x, s) :: es)) as [_ F]. destruct (elem_descs sz ((x, s) :: es)); [discriminate|].
    cbn [top_desc hd d_total]. unfold mul64. apply w64_w64. }
  assert (Ts : shape_total (e' :: ext) = volume (e' :: ext)).
  { pose proof (shape_total_volume (e' :: ext) ltac:(discriminate)) as X. rewrite (w64_small _ Vb) in X. rewrite <- X.
    destruct ext; [cbn [volume] in Vb; symmetry; apply w64_small; cbn; lia|]. cbn [shape_total]. unfold mul64. symmetry. apply w64_w64. }
  unfold reshaped. rewrite Ts, Te. unfold requires, continuous. split.
  - intros [E Ev]. rewrite (proj2 C E), Ev, N.eqb_refl. cbn [andb negb].
    assert (Fb : forallb (fun x : N * N => fst x <=? snd x) (map (fun x => (x, x)) ext) = true).
    { apply forallb_forall. intros x I. apply in_map_iff in I. destruct I as (y & <- & _). apply N.leb_refl. }
    unfold new_elem. rewrite Fb. cbn [requires andb negb then_]. eexists. split; [reflexivity|]. intros is R.
    assert (Ex : map fst (map (fun x : N => (x, x)) ext) = ext) by (rewrite map_map; apply map_id).
    assert (Ey : map snd (map (fun x : N => (x, x)) ext) = ext) by (rewrite map_map; apply map_id).
    cbn [p_ptr elem_view].
    change (Proxy ptr (top_desc sz e' (elem_descs sz (map (fun x => (x, x)) ext)))) with (elem_view sz ptr e' (map (fun x => (x, x)) ext)).
    rewrite elem_view_access; [|exact Hz| |rewrite Ex; exact R|].
    + rewrite Ey. rewrite (dot_dense sz e') by (apply in_range_length in R; cbn in R; lia). reflexivity.
    + apply Forall_forall. intros x I. apply in_map_iff in I. destruct I as (y & <- & _). cbn. lia.
    + rewrite Ey, stored_volume. cbn [volume] in Ev, V. rewrite N.mul_assoc. cbn [volume] in *. nia.
  - intros [E|E].
    + destruct (view_continuous _ _) eqn:X; [|reflexivity]. exfalso. apply E, C. reflexivity.
    + destruct (view_continuous _ _); [|reflexivity]. cbn [andb negb].
      destruct (N.eqb_spec (volume (e' :: ext)) (volume (e :: map fst es))); [congruence|reflexivity].
Qed.
Print Assumptions C97_reshape.

Example C97_reshape_example :
  reshaped true 4 (View (elem_view 4 4096 2 [(3, 3)])) 3 [2] = Go (View (elem_view 4 4096 3 [(2, 2)])) /\
  reshaped true 4 (View (elem_view 4 4096 2 [(3, 3)])) 5 [] = Stop /\
  reshaped true 4 (View (elem_view 4 4096 2 [(3, 4)])) 3 [2] = Stop.
Proof. repeat split. Qed.
