(* C19, C20: integer lookup tables. *)
From Coq Require Import ZArith Znumtheory List Bool Lia.
From Verif Require Import LutModel LutSpec LutProofs.
Import ListNotations.
Local Open Scope Z_scope.

(* ---- C19 ---- *)

(* A table that starts at 0: the lookup reads a sample of the table, and no
   other sample is nearer to x.  With the grid rounded to integers it is nearest
   up to one. *)
Theorem C19_nearest : forall AT N f last, standard AT -> 2 <= N < 2 ^ 31 -> range_ok AT N 0 last ->
  exists t, create AT N f 0 last = Some t /\
  forall x, 0 <= x <= last -> exists i, 0 <= i < N /\
    get_nearest AT N t x = Some (f (grid N 0 last i)) /\
    forall j, 0 <= j < N ->
      distance N 0 last i x <= distance N 0 last j x /\
      Z.abs (grid N 0 last i - x) <= Z.abs (grid N 0 last j - x) + 1.
Proof.
  intros AT N f last SA SN R. eexists. split; [apply create_ok; assumption|].
  intros x Hx. pose proof R as (_ & H1 & H2 & H3 & H4 & Ff & Fl).
  set (i := (2 * (N - 1) * x + last) / (2 * last)).
  pose proof (Z.div_mod (2 * (N - 1) * x + last) (2 * last) ltac:(lia)) as DM.
  pose proof (Z.mod_pos_bound (2 * (N - 1) * x + last) (2 * last) ltac:(lia)) as MB.
  fold i in DM. set (r := (2 * (N - 1) * x + last) mod (2 * last)) in *. clearbody r.
  assert (Hi : 0 <= i < N).
  { split; [apply Z.div_pos; nia|]. apply Z.div_lt_upper_bound; nia. }
  assert (D : forall j, distance N 0 last i x <= distance N 0 last j x).
  { intro j. unfold distance. rewrite !Z.sub_0_r. clearbody i.
    assert (E : x * (N - 1) * 2 = i * (2 * last) + r - last) by nia.
    destruct (Z_lt_le_dec j i) as [L|L]; [|destruct (Z.eq_dec j i) as [Q|Q]; [subst; lia|]].
    - assert (j * last <= (i - 1) * last) by nia. lia.
    - assert ((i + 1) * last <= j * last) by nia. lia. }
  exists i. split; [exact Hi|]. split.
  - unfold get_nearest. rewrite (index1_ok AT N SA SN _ x i); cbn [cache0 cache1]; try lia.
    + apply sample_ok; [exact SN|exact Hi].
    + nia.
    + unfold i. f_equal; lia.
  - intros j Hj. split; [apply D|]. specialize (D j). unfold distance in D. unfold grid.
    rewrite !Z.mul_0_l, !Z.add_0_l, !Z.sub_0_r in *.
    pose proof (Z.div_mod (i * last) (N - 1) ltac:(lia)) as E1. pose proof (Z.mod_pos_bound (i * last) (N - 1) ltac:(lia)) as B1.
    pose proof (Z.div_mod (j * last) (N - 1) ltac:(lia)) as E2. pose proof (Z.mod_pos_bound (j * last) (N - 1) ltac:(lia)) as B2.
    set (a := i * last / (N - 1)) in *. set (b := j * last / (N - 1)) in *. clearbody a b.
    clear - D E1 E2 B1 B2 SN. set (m := N - 1) in *. assert (Hm : 1 <= m) by (unfold m; lia). clearbody m.
    set (p := (i * last) mod m) in *. set (q := (j * last) mod m) in *. clearbody p q.
    rewrite E1, E2 in D. 
    replace (m * a + p - x * m) with (m * (a - x) + p) in D by lia.
    replace (m * b + q - x * m) with (m * (b - x) + q) in D by lia.
    destruct (Z_le_gt_dec 0 (a - x)), (Z_le_gt_dec 0 (b - x)); nia.
Qed.
Print Assumptions C19_nearest.

(* On a grid point that is an integer the lookup is exact. *)
Theorem C19_exact_on_the_grid : forall AT N f last t x j,
  standard AT -> 2 <= N < 2 ^ 31 -> range_ok AT N 0 last -> create AT N f 0 last = Some t ->
  0 <= j < N -> x * (N - 1) = j * last -> get_nearest AT N t x = Some (f x).
Proof.
  intros AT N f last t x j SA SN R C Hj E. pose proof R as (_ & H1 & _).
  destruct (C19_nearest AT N f last SA SN R) as (t' & C' & P). rewrite C in C'. injection C' as C'. subst t'.
  assert (Hx : 0 <= x <= last) by nia.
  destruct (P x Hx) as (i & Hi & G & D). rewrite G. f_equal. f_equal.
  destruct (D j Hj) as [D' _]. unfold distance in D'. rewrite !Z.sub_0_r in D'. rewrite <- E, Z.sub_diag in D'.
  assert (Q : i * last = x * (N - 1)) by lia. unfold grid. rewrite Z.mul_0_l, Z.add_0_l, Z.sub_0_r, Q.
  apply Z_div_mult. lia.
Qed.
Print Assumptions C19_exact_on_the_grid.

(* A table that starts at a positive argument no larger than half of its length
   still reads inside the table, but the sample may be off by [first]: the
   distance is at most half a cell plus [first] (in units of 1/(N-1)). *)
Theorem C19_shifted : forall AT N f first last, standard AT -> 2 <= N < 2 ^ 31 ->
  range_ok AT N first last -> 0 <= first -> 2 * first <= last - first ->
  exists t, create AT N f first last = Some t /\
  forall x, first <= x <= last -> exists i, 0 <= i < N /\
    get_nearest AT N t x = Some (f (grid N first last i)) /\
    2 * distance N first last i x <= (last - first) + 2 * first.
Proof.
  intros AT N f first last SA SN R F0 F2. eexists. split; [apply create_ok; assumption|].
  intros x Hx. pose proof R as (_ & H1 & H2 & H3 & H4 & Ff & Fl).
  set (len := last - first) in *. set (d := x - first).
  assert (Ex : 2 * (N - 1) * x + (len - 2 * N * first) = 2 * (N - 1) * d + len - 2 * first) by (unfold d; lia).
  set (i := (2 * (N - 1) * x + (len - 2 * N * first)) / (2 * len)).
  pose proof (Z.div_mod (2 * (N - 1) * x + (len - 2 * N * first)) (2 * len) ltac:(lia)) as DM.
  pose proof (Z.mod_pos_bound (2 * (N - 1) * x + (len - 2 * N * first)) (2 * len) ltac:(lia)) as MB.
  fold i in DM. rewrite Ex in DM, MB.
  assert (Hd : 0 <= d <= len) by (unfold d, len; lia).
  assert (Hi : 0 <= i < N).
  { unfold i. rewrite Ex. split; [apply Z.div_pos; nia|]. apply Z.div_lt_upper_bound; nia. }
  exists i. split; [exact Hi|]. split.
  - unfold get_nearest. rewrite (index1_ok AT N SA SN _ x i); cbn [cache0 cache1]; fold len;
      [apply sample_ok; [exact SN|exact Hi]|lia|nia|reflexivity|lia].
  - unfold distance. fold len d. set (r := (2 * (N - 1) * d + len - 2 * first) mod (2 * len)) in *. clearbody r i d len.
    assert (E : d * (N - 1) * 2 = i * len * 2 + r - len + 2 * first) by lia. lia.
Qed.
Print Assumptions C19_shifted.

(* A table that starts at a negative argument of at least half its length: the
   lookup of the last argument reads past the table. *)
Theorem C19_negative_never_works : forall AT N f first last t, standard AT -> 2 <= N < 2 ^ 31 ->
  range_ok AT N first last -> last - first <= - 2 * first ->
  create AT N f first last = Some t -> get_nearest AT N t last = None.
Proof.
  intros AT N f first last t SA SN R L C. pose proof R as (_ & H1 & H2 & H3 & H4 & Ff & Fl).
  rewrite create_ok in C by assumption.
  match type of C with Some ?u = _ => assert (E : t = u) by congruence end. clear C. subst t.
  unfold get_nearest. rewrite index1_mod; [|assumption|assumption|cbn [cache1]; lia]. cbn [cache0 cache1].
  set (len := last - first) in *.
  replace (2 * (N - 1) * last + (len - 2 * N * first)) with (2 * (N - 1) * len + len - 2 * first) by (unfold len; lia).
  assert (B0 : 0 <= 2 * (N - 1) * len + len - 2 * first < 2 ^ 64) by nia.
  rewrite Z.mod_small by exact B0.
  assert (B : N <= (2 * (N - 1) * len + len - 2 * first) / (2 * len) < 2 ^ 32).
  { split; [apply Z.div_le_lower_bound; nia|]. apply Z.div_lt_upper_bound; [lia|].
    assert (FB : - 2 ^ 30 < first < 2 ^ 30) by nia. assert ((N - 1) * len <= 2 ^ 31 * len) by nia. lia. }
  set (q := (2 * (N - 1) * len + len - 2 * first) / (2 * len)) in *. clearbody q.
  unfold convert. cbn [sg bits i32]. rewrite Z.mod_small by lia. cbn [andb].
  change (32 - 1) with 31.
  unfold sample. destruct (2 ^ 31 <=? q) eqn:E.
  - apply Z.leb_le in E. rewrite (proj2 (Z.ltb_lt (q - 2 ^ 32) 0)) by lia. reflexivity.
  - apply Z.leb_gt in E. rewrite (proj2 (Z.ltb_ge q 0)) by lia. cbn [samples].
    apply nth_error_None. unfold samples_of. rewrite map_length, seq_length. lia.
Qed.
Print Assumptions C19_negative_never_works.

(* The whole range does not work when the table does not start at 0: from -100
   to 100, and from 10 to 12. *)
Theorem C19_any_range_refuted :
  (exists t, create i32 5 (fun x => x) (-100) 100 = Some t /\ samples t = [-100; -50; 0; 50; 100] /\
             get_nearest i32 5 t 100 = None) /\
  (exists t, create i32 3 (fun x => x) 10 12 = Some t /\ samples t = [10; 11; 12] /\
             get_nearest i32 3 t 10 = None).
Proof.
  split; eexists; (split; [vm_compute; reflexivity|split; vm_compute; reflexivity]).
Qed.
Print Assumptions C19_any_range_refuted.

(* The sample read is not always the one whose own (rounded) argument is the
   nearest: 11 samples on [0, 111], x = 94 reads the sample of 88, not of 99. *)
Theorem C19_rounded_grid_refuted : exists t,
  create i32 11 (fun x => x) 0 111 = Some t /\ get_nearest i32 11 t 94 = Some 88 /\ nth_error (samples t) 9 = Some 99.
Proof. eexists. split; [vm_compute; reflexivity|split; vm_compute; reflexivity]. Qed.
Print Assumptions C19_rounded_grid_refuted.

Example C19_ex : range_ok (MkIty false 8) 5 0 100 /\ standard (MkIty false 8) /\
  exists t, create (MkIty false 8) 5 (fun x => 3 * x + 1) 0 100 = Some t /\
    get_nearest (MkIty false 8) 5 t 62 = Some 151 /\ get_nearest (MkIty false 8) 5 t 63 = Some 226.
Proof.
  split; [|split; [left; reflexivity|]].
  - unfold range_ok, fits. cbn. lia.
  - eexists. split; [vm_compute; reflexivity|split; vm_compute; reflexivity].
Qed.

Example C19_shifted_ex : range_ok i32 5 10 50 /\
  exists t, create i32 5 (fun x => x) 10 50 = Some t /\ samples t = [10; 20; 30; 40; 50] /\
    get_nearest i32 5 t 17 = Some 10 /\ get_nearest i32 5 t 50 = Some 50.
Proof.
  split; [unfold range_ok, fits; cbn; lia|].
  eexists. split; [vm_compute; reflexivity|repeat split; vm_compute; reflexivity].
Qed.

Example C19_negative_ex : range_ok i32 5 (-100) 100 /\ 100 - -100 <= - 2 * -100.
Proof. split; [|lia]. unfold range_ok, fits. cbn. split; [right; split; [lia|exists 2; lia]|lia]. Qed.

(* ---- C20 ---- *)

(* The position of x on the grid, in 1024ths of a cell, rounded down. *)
Definition position (N first last x : Z) : Z := 1024 * (N - 1) * (x - first) / (last - first).

(* The lookup reads two neighbouring samples, weighs them by the position of x
   between them and drops the fraction; the result lies between the two. *)
Theorem C20_linear : forall AT VT N f first last, standard AT -> standard VT -> 2 <= N < 2 ^ 31 ->
  range_ok AT N first last -> (N - 1) * (last - first) < 2 ^ 54 ->
  (forall i, 0 <= i < N -> value_ok VT (f (grid N first last i))) ->
  exists t, create AT N f first last = Some t /\
  forall x, first <= x <= last -> exists i a r,
    0 <= i <= N - 2 /\ 0 <= a <= 1024 /\ 1024 * i + a = position N first last x /\
    get_linear AT VT N t x = Some r /\
    r = Z.quot ((1024 - a) * f (grid N first last i) + a * f (grid N first last (i + 1))) 1024 /\
    between (f (grid N first last i)) (f (grid N first last (i + 1))) r.
Proof.
  intros AT VT N f first last SA SV SN R M V. eexists. split; [apply create_ok; assumption|].
  intros x Hx. pose proof R as (_ & H1 & H2 & H3 & H4 & Ff & Fl).
  assert (FB : - 2 ^ 30 < first < 2 ^ 30) by nia.
  set (len := last - first) in *.
  set (t := MkTable _ _ _ _ _).
  assert (I2 := index2_ok AT N SA SN t x (range_fits AT N SA first last x R Hx)
    (proj2 (fits_i32 first) ltac:(lia)) ltac:(lia) ltac:(cbn [m_first m_length t]; lia) ltac:(cbn [m_length t]; lia) M).
  cbn [m_first m_length t] in I2.
  set (p := 1024 * (N - 1) * (x - first) / len) in *. cbv zeta in I2.
  assert (P : 0 <= p <= 1024 * (N - 1)).
  { unfold p. split; [apply Z.div_pos; nia|]. apply Z.div_le_upper_bound; nia. }
  pose proof (Z.div_mod p 1024 ltac:(lia)) as DM. pose proof (Z.mod_pos_bound p 1024 ltac:(lia)) as MB.
  set (i := Z.min (p / 1024) (N - 2)) in *.
  assert (Hi : 0 <= i <= N - 2) by (unfold i; lia).
  assert (Ha : 0 <= p - i * 1024 <= 1024) by (unfold i; lia).
  exists i, (p - i * 1024). eexists. split; [exact Hi|]. split; [exact Ha|].
  split; [unfold position; fold len; fold p; lia|]. split; [|split; [reflexivity|apply quot_between; lia]].
  unfold get_linear. rewrite I2. unfold t. rewrite !sample_ok by lia.
  destruct (V i ltac:(lia)) as [V1 V2]. destruct (V (i + 1) ltac:(lia)) as [V3 V4].
  apply interpolate_ok; assumption.
Qed.
Print Assumptions C20_linear.

(* On a grid point that is an integer, in particular at both ends, the lookup
   is exact. *)
Theorem C20_exact_on_the_grid : forall AT VT N f first last t x j,
  standard AT -> standard VT -> 2 <= N < 2 ^ 31 ->
  range_ok AT N first last -> (N - 1) * (last - first) < 2 ^ 54 ->
  (forall i, 0 <= i < N -> value_ok VT (f (grid N first last i))) ->
  create AT N f first last = Some t ->
  0 <= j < N -> (x - first) * (N - 1) = j * (last - first) -> get_linear AT VT N t x = Some (f x).
Proof.
  intros AT VT N f first last t x j SA SV SN R M V C Hj E. pose proof R as (_ & H1 & _).
  destruct (C20_linear AT VT N f first last SA SV SN R M V) as (t' & C' & P). rewrite C in C'. injection C' as C'. subst t'.
  assert (Hx : first <= x <= last) by nia.
  destruct (P x Hx) as (i & a & r & Hi & Ha & Ep & G & Er & _). rewrite G, Er. clear G Er P. f_equal.
  assert (Q : position N first last x = 1024 * j).
  { unfold position. replace (1024 * (N - 1) * (x - first)) with (1024 * j * (last - first)) by lia.
    apply Z_div_mult. lia. }
  rewrite Q in Ep. clear Q.
  assert (GX : grid N first last j = x).
  { unfold grid. rewrite <- E. replace (first * (N - 1) + (x - first) * (N - 1)) with (x * (N - 1)) by lia.
    apply Z_div_mult. lia. }
  assert (D : (a = 0 /\ i = j) \/ (a = 1024 /\ i + 1 = j)) by lia. destruct D as [[D1 D2]|[D1 D2]]; rewrite D1, D2.
  - rewrite GX. replace ((1024 - 0) * f x + 0 * f (grid N first last (j + 1))) with (f x * 1024) by lia. apply Z.quot_mul. lia.
  - rewrite GX. replace ((1024 - 1024) * f (grid N first last i) + 1024 * f x) with (f x * 1024) by lia. apply Z.quot_mul. lia.
Qed.
Print Assumptions C20_exact_on_the_grid.

(* The interpolation of rising samples rises. *)
Theorem C20_monotone : forall AT VT N f first last t x x' r r',
  standard AT -> standard VT -> 2 <= N < 2 ^ 31 ->
  range_ok AT N first last -> (N - 1) * (last - first) < 2 ^ 54 ->
  (forall i, 0 <= i < N -> value_ok VT (f (grid N first last i))) ->
  (forall u v, first <= u <= v -> v <= last -> f u <= f v) ->
  create AT N f first last = Some t ->
  first <= x <= x' -> x' <= last ->
  get_linear AT VT N t x = Some r -> get_linear AT VT N t x' = Some r' -> r <= r'.
Proof.
  intros AT VT N f first last t x x' r r' SA SV SN R M V F C Hx Hx' G G'. pose proof R as (_ & H1 & _).
  destruct (C20_linear AT VT N f first last SA SV SN R M V) as (t' & C' & P). rewrite C in C'. injection C' as C'. subst t'.
  destruct (P x ltac:(lia)) as (i & a & q & Hi & Ha & Ep & Gq & Er & Br).
  destruct (P x' ltac:(lia)) as (i' & a' & q' & Hi' & Ha' & Ep' & Gq' & Er' & Br').
  rewrite G in Gq. rewrite G' in Gq'. injection Gq as Gq. injection Gq' as Gq'. subst q q'. clear G G' P C.
  assert (L : 1024 * i + a <= 1024 * i' + a').
  { rewrite Ep, Ep'. unfold position. apply Z.div_le_mono; [lia|]. nia. }
  assert (GM : forall u v, 0 <= u <= v -> v < N -> f (grid N first last u) <= f (grid N first last v)).
  { intros u v Hu Hv. apply F.
    - split; [apply grid_bounds; lia|]. unfold grid. apply Z.div_le_mono; [lia|]. nia.
    - apply grid_bounds; lia. }
  destruct (Z_lt_le_dec i i') as [D|D].
  - apply Z.le_trans with (f (grid N first last (i + 1))).
    + unfold between in Br. pose proof (GM i (i + 1) ltac:(lia) ltac:(lia)). lia.
    + apply Z.le_trans with (f (grid N first last i')); [apply GM; lia|].
      unfold between in Br'. pose proof (GM i' (i' + 1) ltac:(lia) ltac:(lia)). lia.
  - destruct (Z.eq_dec i i') as [Q|Q].
    + subst i' r r'. apply Z.quot_le_mono; [lia|]. pose proof (GM i (i + 1) ltac:(lia) ltac:(lia)). nia.
    + assert (i = i' + 1 /\ a = 0 /\ a' = 1024) as (E1 & E2 & E3) by lia. subst i a a' r r'.
      apply Z.quot_le_mono; [lia|]. lia.
Qed.
Print Assumptions C20_monotone.

(* Samples of a 32-bit value type are interpolated in uint32_t arithmetic: a
   constant -1 becomes 4194303, a constant 2^22 becomes 0. *)
Theorem C20_negative_samples_refuted : exists t,
  create i32 3 (fun _ => -1) 0 10 = Some t /\ samples t = [-1; -1; -1] /\ get_linear i32 i32 3 t 5 = Some 4194303.
Proof. eexists. split; [vm_compute; reflexivity|split; vm_compute; reflexivity]. Qed.
Print Assumptions C20_negative_samples_refuted.

Theorem C20_large_samples_refuted : exists t,
  create i32 3 (fun _ => 2 ^ 22) 0 10 = Some t /\ get_linear i32 i32 3 t 5 = Some 0.
Proof. eexists. split; [vm_compute; reflexivity|]. vm_compute. reflexivity. Qed.
Print Assumptions C20_large_samples_refuted.

(* In fact no result of a 32-bit value type is negative or reaches 2^22. *)
Theorem C20_results_of_32_bits : forall sign a y0 y1 r,
  interpolate (MkIty sign 32) a y0 y1 = Some r -> 0 <= r < 2 ^ 22.
Proof.
  intros sign a y0 y1 r H. unfold interpolate in H.
  assert (A : forall op x y, fst x = u32 -> bits (fst y) = 32 -> exists z, arith op x y = Some (u32, z) /\ 0 <= z < 2 ^ 32).
  { intros op [t x] [[s b] y] E B. cbn [fst bits] in *. subst t b. unfold arith. cbn [fst snd].
    replace (common u32 (MkIty s 32)) with u32 by (destruct s; reflexivity).
    unfold result. change (sg u32) with false. cbv iota. eexists. split; [reflexivity|]. apply Z.mod_pos_bound. lia. }
  unfold csub, cmul, cadd in H.
  destruct (A Z.sub (u32, 1024) (u32, a)) as (c & E1 & _); [reflexivity|reflexivity|]. rewrite E1 in H.
  destruct (A Z.mul (u32, c) (MkIty sign 32, y0)) as (p & E2 & _); [reflexivity|reflexivity|]. rewrite E2 in H.
  destruct (A Z.mul (u32, a) (MkIty sign 32, y1)) as (q & E3 & _); [reflexivity|reflexivity|]. rewrite E3 in H.
  destruct (A Z.add (u32, p) (u32, q)) as (w & E4 & B); [reflexivity|reflexivity|]. rewrite E4 in H. clear E1 E2 E3 E4 A.
  assert (Q : 0 <= w / 1024 < 2 ^ 22) by (split; [apply Z.div_pos; lia|apply Z.div_lt_upper_bound; lia]).
  rewrite (cdiv_ok u32 u32 w u32 1024 (w / 1024)) in H;
    [|reflexivity|auto with lut|apply fits_u32; lia|apply fits_u32; lia|lia|apply Z.quot_div_nonneg; lia|apply fits_u32; lia].
  rewrite cast_ok in H.
  - cbn [snd] in H. congruence.
  - right. right. left. reflexivity.
  - unfold fits, ity_min, ity_max. cbn [sg bits]. destruct sign; lia.
Qed.
Print Assumptions C20_results_of_32_bits.

(* With a number of cells that is not a power of two, a table that starts at a
   negative argument is sampled elsewhere. *)
Theorem C20_negative_start_refuted : exists t,
  create i32 4 (fun x => x) (-3) 3 = Some t /\ samples t = [1431655762; 1431655764; 1; 3].
Proof. eexists. split; [vm_compute; reflexivity|]. vm_compute. reflexivity. Qed.
Print Assumptions C20_negative_start_refuted.

Example C20_ex : range_ok i32 5 (-100) 100 /\
  (forall i, 0 <= i < 5 -> value_ok i64 ((fun x => 7 * x) (grid 5 (-100) 100 i))) /\
  exists t, create i32 5 (fun x => 7 * x) (-100) 100 = Some t /\
    get_linear i32 i64 5 t (-100) = Some (-700) /\ get_linear i32 i64 5 t 33 = Some 230 /\
    get_linear i32 i64 5 t 100 = Some 700.
Proof.
  split; [unfold range_ok, fits; cbn; split; [right; split; [lia|exists 2; lia]|lia]|]. split.
  - intros i Hi. assert (-100 <= grid 5 (-100) 100 i <= 100) by (apply grid_bounds; lia).
    set (g := grid 5 (-100) 100 i) in *. clearbody g. unfold value_ok.
    change (common u32 i64) with i64. cbv beta. rewrite !fits_i64. lia.
  - eexists. split; [vm_compute; reflexivity|repeat split; vm_compute; reflexivity].
Qed.
