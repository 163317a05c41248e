(* Standard algorithms over the plain iterators and over the rows of a container. *)
From Coq Require Import List Bool NArith ZArith Lia Arith.
From Verif Require Import NdModel NdSpec NdProofs NdAccess NdIter ArrModel ArrSpec ArrProofs ArrRun.
Import ListNotations.
Local Open Scope N_scope.
Set Default Proof Using "Type".

(* ---- one step of each algorithm ---- *)

Lemma pcopy_S V sz f (m : mem V) s e d : std_copy (pointer_ops V sz) (S f) m s e d =
  if s =? e then Some (m, d) else std_copy (pointer_ops V sz) f (put m d (m s)) (add64 s sz) e (add64 d sz).
Proof. reflexivity. Qed.
Lemma pswap_S V sz f (m : mem V) s e d : std_swap_ranges (pointer_ops V sz) (S f) m s e d =
  if s =? e then Some (m, d) else std_swap_ranges (pointer_ops V sz) f (iter_swap m s d) (add64 s sz) e (add64 d sz).
Proof. reflexivity. Qed.
Lemma rcopy_S V k sz f (m : mem V) s e d : std_copy (row_ops V k sz) (S f) m s e d =
  if it_eq s e then Some (m, d) else std_copy (row_ops V k sz) f m (it_next k sz s) e (it_next k sz s).
Proof. reflexivity. Qed.
Lemma rswap_S V k sz f (m : mem V) s e d : std_swap_ranges (row_ops V k sz) (S f) m s e d =
  if it_eq s e then Some (m, d) else std_swap_ranges (row_ops V k sz) f m (it_next k sz d) e (it_next k sz s).
Proof. reflexivity. Qed.
Lemma rreverse_S V k sz f (m : mem V) s e : std_reverse_loop (row_ops V k sz) (S f) m s e =
  if it_lt s e then std_reverse_loop (row_ops V k sz) f m (it_next k sz e) (it_prev k sz s) else Some m.
Proof. reflexivity. Qed.

(* ---- pointers ---- *)

Lemma pointer_copy {V} sz : 0 < sz -> forall n fuel (m : mem V) s d, (n < fuel)%nat ->
  s + N.of_nat n * sz < 2 ^ 64 -> d + N.of_nat n * sz < 2 ^ 64 ->
  std_copy (pointer_ops V sz) fuel m s (s + N.of_nat n * sz) d = Some (assign_loop n sz m d s, d + N.of_nat n * sz).
Proof.
  intros Hz. induction n as [|n IH]; intros fuel m s d F Bs Bd; (destruct fuel as [|f]; [lia|]); rewrite pcopy_S; cbn [assign_loop].
  - cbn. rewrite !N.add_0_r, N.eqb_refl. reflexivity.
  - destruct (N.eqb_spec s (s + N.of_nat (S n) * sz)) as [X|_]; [nia|].
    unfold add64. rewrite !w64_small by nia.
    replace (s + N.of_nat (S n) * sz) with (s + sz + N.of_nat n * sz) by lia.
    rewrite IH by nia. do 2 f_equal. lia.
Qed.

Lemma pointer_swap_ranges {V} sz : forall fuel (m m' : mem V) s e d, swap_loop fuel sz m s d e = Some m' ->
  exists x, std_swap_ranges (pointer_ops V sz) fuel m s e d = Some (m', x).
Proof.
  induction fuel as [|f IH]; intros m m' s e d H; cbn [swap_loop] in H; [discriminate|].
  rewrite pswap_S. destruct (s =? e); [injection H as ->; eauto|].
  now apply IH.
Qed.

(* ---- rows ---- *)

Section Rows.
Variables (k : kind) (sz : N).
(* a container with at least two dimensions that is in the address space *)
Definition with_rows (c : proxy) (n step : N) : Prop :=
  exists d0 d1 ds, p_descs c = d0 :: d1 :: ds /\ d_size d0 = n /\ bytes k sz d1 = step /\
    0 < step /\ p_ptr c + n * step < 2 ^ 64.

Lemma row_ptr c n step i : with_rows c n step -> p_ptr c + i * step < 2 ^ 64 ->
  p_ptr (sub_view k sz c i) = p_ptr c + i * step.
Proof.
  intros (d0 & d1 & ds & E & _ & S & _) B. unfold sub_view. rewrite E. cbn [p_ptr]. rewrite S.
  unfold add64, mul64. rewrite w64_add_r. now apply w64_small.
Qed.
Lemma row_next c n step i : with_rows c n step -> it_next k sz (sub_view k sz c i) = sub_view k sz c (i + 1).
Proof.
  intros (d0 & d1 & ds & E & _). rewrite it_next_add, (sub_view_add k sz c d0 d1 ds) by (assumption || lia).
  f_equal. lia.
Qed.
Lemma row_prev c n step i : with_rows c n step -> step < 2 ^ 64 ->
  it_prev k sz (sub_view k sz c (i + 1)) = sub_view k sz c i.
Proof.
  intros (d0 & d1 & ds & E & _ & S & _) B. rewrite it_prev_add.
  - rewrite (sub_view_add k sz c d0 d1 ds) by (assumption || lia). f_equal. lia.
  - unfold total_stored, top, sub_view. rewrite E. cbn. rewrite S. exact B.
Qed.
Lemma it_end_row c n step : with_rows c n step -> it_end k sz c = sub_view k sz c n.
Proof. intros (d0 & d1 & ds & E & D & _). unfold it_end, top. rewrite E. cbn [hd]. now rewrite D. Qed.
Lemma row_same c n step i j : with_rows c n step -> i <= n -> j <= n ->
  it_eq (sub_view k sz c i) (sub_view k sz c j) = (i =? j).
Proof.
  intros W Hi Hj. pose proof W as (d0 & d1 & ds & _ & _ & _ & P & B).
  unfold it_eq. rewrite !(row_ptr c n step) by (assumption || nia).
  destruct (N.eqb_spec i j) as [->|]; [apply N.eqb_refl|]. apply N.eqb_neq. nia.
Qed.

(* after the first step the output iterator is the input iterator *)
Lemma row_copy_loop {V} c n step : with_rows c n step -> forall r i fuel (m : mem V), (r < fuel)%nat -> i + N.of_nat r = n ->
  std_copy (row_ops V k sz) fuel m (sub_view k sz c i) (sub_view k sz c n) (sub_view k sz c i) = Some (m, sub_view k sz c n).
Proof.
  intros W. induction r as [|r IH]; intros i fuel m F E; (destruct fuel as [|f]; [lia|]); rewrite rcopy_S.
  - rewrite (row_same c n step) by (assumption || lia). replace i with n by lia. now rewrite N.eqb_refl.
  - rewrite (row_same c n step) by (assumption || lia). destruct (N.eqb_spec i n); [lia|].
    rewrite (row_next c n step) by assumption. apply IH; lia.
Qed.
Lemma row_copy {V} c n step fuel (m : mem V) d : with_rows c n step -> (N.to_nat n < fuel)%nat ->
  std_copy (row_ops V k sz) fuel m (it_begin k sz c) (it_end k sz c) d =
    Some (m, if n =? 0 then d else it_end k sz c).
Proof.
  intros W F. rewrite (it_end_row c n step W). unfold it_begin. destruct fuel as [|f]; [lia|]. rewrite rcopy_S.
  rewrite (row_same c n step) by (assumption || lia). rewrite N.eqb_sym. destruct (N.eqb_spec n 0) as [->|Nz]; [reflexivity|].
  rewrite (row_next c n step) by assumption.
  apply (row_copy_loop c n step W (N.to_nat n - 1)); lia.
Qed.

(* swap_ranges exchanges the two iterators in each step *)
Lemma row_swap_even {V} c n step c' step' : with_rows c n step -> with_rows c' n step' ->
  (p_ptr c + n * step <= p_ptr c' \/ p_ptr c' + n * step' <= p_ptr c) ->
  forall r j fuel (m : mem V), (2 * r < fuel)%nat -> j + 2 * N.of_nat r = n ->
  std_swap_ranges (row_ops V k sz) fuel m (sub_view k sz c j) (sub_view k sz c n) (sub_view k sz c' j) =
    Some (m, sub_view k sz c' n).
Proof.
  intros W W' A. induction r as [|r IH]; intros j fuel m F E; (destruct fuel as [|f]; [lia|]); rewrite rswap_S.
  - rewrite (row_same c n step) by (assumption || lia). replace j with n by lia. now rewrite N.eqb_refl.
  - rewrite (row_same c n step) by (assumption || lia). destruct (N.eqb_spec j n); [lia|].
    rewrite !(row_next c n step), !(row_next c' n step') by assumption.
    destruct f as [|f]; [lia|]. rewrite rswap_S.
    assert (Ne : it_eq (sub_view k sz c' (j + 1)) (sub_view k sz c n) = false).
    { pose proof W as (_ & _ & _ & _ & _ & _ & P & B). pose proof W' as (_ & _ & _ & _ & _ & _ & P' & B').
      unfold it_eq. rewrite (row_ptr c n step), (row_ptr c' n step') by (assumption || nia). apply N.eqb_neq. nia. }
    rewrite Ne. rewrite !(row_next c n step), !(row_next c' n step') by assumption.
    apply IH; lia.
Qed.
Lemma row_swap_odd {V} c n step c' step' : with_rows c n step -> with_rows c' n step' -> N.odd n = true ->
  p_ptr c + n * step <= p_ptr c' ->
  forall fuel (m : mem V), p_ptr c + N.of_nat fuel * step < 2 ^ 64 -> p_ptr c' + N.of_nat fuel * step' < 2 ^ 64 ->
  std_swap_ranges (row_ops V k sz) fuel m (it_begin k sz c) (it_end k sz c) (it_begin k sz c') = None.
Proof.
  intros W W' O A fuel m B B'. rewrite (it_end_row c n step W). unfold it_begin.
  pose proof W as (_ & _ & _ & _ & _ & _ & P & Bn). pose proof W' as (_ & _ & _ & _ & _ & _ & P' & Bn').
  assert (G : forall f j, N.even j = true -> j + N.of_nat f <= N.of_nat fuel ->
    std_swap_ranges (row_ops V k sz) f m (sub_view k sz c j) (sub_view k sz c n) (sub_view k sz c' j) = None).
  { intros f. induction f as [f IH] using (well_founded_induction lt_wf). intros j Ej Hj.
    destruct f as [|f]; [reflexivity|]. rewrite rswap_S.
    assert (Ne : it_eq (sub_view k sz c j) (sub_view k sz c n) = false).
    { unfold it_eq. rewrite !(row_ptr c n step) by (assumption || nia). apply N.eqb_neq.
      assert (j <> n) by (intros ->; rewrite <- N.negb_odd, O in Ej; discriminate). nia. }
    rewrite Ne. rewrite !(row_next c n step), !(row_next c' n step') by assumption.
    destruct f as [|f]; [reflexivity|]. rewrite rswap_S.
    assert (Ne' : it_eq (sub_view k sz c' (j + 1)) (sub_view k sz c n) = false).
    { unfold it_eq. rewrite (row_ptr c n step), (row_ptr c' n step') by (assumption || nia). apply N.eqb_neq. nia. }
    rewrite Ne'. rewrite !(row_next c n step), !(row_next c' n step') by assumption.
    apply IH; [lia| |lia]. rewrite <- N.add_assoc, N.even_add, Ej. reflexivity. }
  apply G; [reflexivity|lia].
Qed.

Lemma row_reverse {V} c n step fuel (m : mem V) : with_rows c n step -> step <= p_ptr c -> (1 < fuel)%nat ->
  std_reverse (row_ops V k sz) fuel m (it_begin k sz c) (it_end k sz c) = Some m.
Proof.
  intros W Lo F. pose proof W as (d0 & d1 & ds & E & D & S & P & B).
  unfold std_reverse. rewrite (it_end_row c n step W). unfold it_begin. change (same (row_ops V k sz)) with it_eq.
  rewrite (row_same c n step) by (assumption || lia). rewrite N.eqb_sym. destruct (N.eqb_spec n 0) as [->|Nz]; [reflexivity|].
  change (dec (row_ops V k sz)) with (it_prev k sz). replace (sub_view k sz c n) with (sub_view k sz c (n - 1 + 1)) by (f_equal; lia).
  rewrite (row_prev c n step) by (assumption || nia).
  destruct fuel as [|[|f]]; [lia|lia|]. rewrite rreverse_S.
  destruct (it_lt (sub_view k sz c 0) (sub_view k sz c (n - 1))); [|reflexivity].
  rewrite (row_next c n step) by assumption.
  assert (Ge : it_lt (sub_view k sz c (n - 1 + 1)) (it_prev k sz (sub_view k sz c 0)) = false).
  { unfold it_lt. rewrite (row_ptr c n step) by (assumption || nia). apply N.ltb_ge.
    unfold it_prev. cbn [p_ptr].
    assert (T : total_stored k sz (sub_view k sz c 0) = step) by (unfold total_stored, top, sub_view; rewrite E; cbn; exact S).
    rewrite T, (row_ptr c n step) by (assumption || nia).
    assert (U : p_ptr c + 0 * step + to_u64 (- to_i64 step) = p_ptr c - step + 2 ^ 64).
    { unfold to_u64, to_i64. destruct (N.ltb_spec step (2 ^ 63)).
      - replace ((- Z.of_N step) mod 2 ^ 64)%Z with (2 ^ 64 - Z.of_N step)%Z; [lia|].
        apply Z.mod_unique with (q := (-1)%Z); lia.
      - rewrite Z.mod_small; lia. }
    unfold add64. rewrite U. unfold w64. replace (p_ptr c - step + 2 ^ 64) with (p_ptr c - step + 1 * 2 ^ 64) by lia.
    rewrite N.mod_add by discriminate. rewrite N.mod_small by lia. nia. }
  rewrite rreverse_S, Ge. reflexivity.
Qed.

End Rows.

(* rows of an array_nd *)
Lemma plain_total ext : ext <> [] -> Forall (fun e => 0 < e) ext -> volume ext < 2 ^ 64 ->
  d_total (hd (Desc 0 0 0) (plain_descs ext)) = volume ext /\ d_offset (hd (Desc 0 0 0) (plain_descs ext)) = volume ext.
Proof.
  intros E P B. induction ext as [|e ext IH]; [congruence|]. inversion P as [|? ? Pe P']; subst. cbn [plain_descs].
  destruct (plain_descs ext) as [|d ds] eqn:X.
  - destruct ext as [|x ext]; [cbn; lia|]. apply (f_equal (@length desc)) in X. rewrite plain_length in X. discriminate.
  - assert (ext <> []) by (intros ->; discriminate). pose proof (volume_positive _ P').
    change (volume (e :: ext)) with (e * volume ext) in *. destruct IH as [I1 I2]; [assumption|exact P'|nia|].
    cbn [hd d_total d_offset] in *. rewrite I1. unfold mul64. rewrite w64_small by exact B. easy.
Qed.
Lemma array_with_rows sz a e r : 0 < sz -> placed sz a -> shape a = e :: r -> r <> [] ->
  with_rows Plain sz (vector_proxy (base a) (shape a)) e (volume r * sz).
Proof.
  intros Hz (E & P & B) S Nr. rewrite S in *. inversion P as [|? ? Pe P']; subst. pose proof (volume_positive _ P') as Vp.
  change (volume (e :: r)) with (e * volume r) in B.
  assert (T : d_offset (hd (Desc 0 0 0) (plain_descs r)) = volume r) by (apply plain_total; [exact Nr|exact P'|nia]).
  unfold with_rows, vector_proxy. cbn [p_descs p_ptr plain_descs].
  destruct (plain_descs r) as [|d ds] eqn:X.
  - destruct r; [congruence|]. apply (f_equal (@length desc)) in X. rewrite plain_length in X. discriminate.
  - do 3 eexists. split; [reflexivity|]. cbn [hd] in T. unfold bytes, offset_to_bytes. rewrite T.
    split; [reflexivity|]. split; [unfold mul64; apply w64_small; nia|]. split; [nia|nia].
Qed.
