From Coq Require Import ZArith Znumtheory List Bool Lia.
From Verif Require Import LutModel LutSpec.
Import ListNotations.
Local Open Scope Z_scope.

(* ---- integers ---- *)

Ltac std H := destruct H as [H|[H|[H|H]]].

Lemma fits_in : forall t v, fits t v -> in_ity t v = true.
Proof. intros t v [H1 H2]. unfold in_ity. apply andb_true_iff. split; apply Z.leb_le; assumption. Qed.

Lemma convert_id : forall t v, standard t -> fits t v -> convert t v = v.
Proof.
  intros [s b] v S [H1 H2]. unfold standard in S. cbn [bits] in S.
  unfold ity_min, ity_max in H1, H2. cbn [sg bits] in *. unfold convert. cbn [sg bits].
  assert (D : 2 ^ b = 2 * 2 ^ (b - 1)) by (std S; subst b; reflexivity).
  assert (P : 0 < 2 ^ (b - 1)) by (std S; subst b; reflexivity).
  destruct s; cbn [andb].
  - destruct (Z_lt_le_dec v 0) as [L|L].
    + replace (v mod 2 ^ b) with (v + 2 ^ b).
      * rewrite (proj2 (Z.leb_le _ _)) by lia. lia.
      * apply Z.mod_unique with (-1); lia.
    + rewrite Z.mod_small by lia. rewrite (proj2 (Z.leb_gt _ _)) by lia. reflexivity.
  - apply Z.mod_small. lia.
Qed.

Lemma common_standard : forall t u, standard t -> standard u -> standard (common t u).
Proof.
  intros [s b] [s' b'] S S'. unfold standard in *. cbn [bits] in *.
  std S; std S'; subst; destruct s, s'; vm_compute; tauto.
Qed.

Lemma promote_standard : forall t, standard t -> standard (promote t).
Proof. intros [s b] S. unfold standard in *. cbn [bits] in *. std S; subst; destruct s; vm_compute; tauto. Qed.

Lemma result_ok : forall t v, standard t -> fits t v -> result t v = Some (t, v).
Proof.
  intros t v S F. unfold result. destruct (sg t); [rewrite (fits_in t v F); reflexivity|].
  rewrite convert_id by assumption. reflexivity.
Qed.

Lemma arith_ok : forall op T t a u b c, common t u = T -> standard T -> fits T a -> fits T b -> op a b = c -> fits T c ->
  arith op (t, a) (u, b) = Some (T, c).
Proof.
  intros op T t a u b c E S Fa Fb Eo Fo. unfold arith. cbn [fst snd]. rewrite E.
  rewrite (convert_id T a), (convert_id T b), Eo by assumption. apply result_ok; assumption.
Qed.

Lemma cdiv_ok : forall T t a u b c, common t u = T -> standard T -> fits T a -> fits T b -> b <> 0 ->
  Z.quot a b = c -> fits T c -> cdiv (t, a) (u, b) = Some (T, c).
Proof.
  intros T t a u b c E S Fa Fb Nz Eo Fo. unfold cdiv. cbn [fst snd]. rewrite E.
  rewrite (convert_id T a), (convert_id T b) by assumption. rewrite (proj2 (Z.eqb_neq b 0) Nz), Eo.
  apply result_ok; assumption.
Qed.

Lemma cast_ok : forall t u v, standard t -> fits t v -> cast t (u, v) = (t, v).
Proof. intros t u v S F. unfold cast. cbn [snd]. rewrite convert_id by assumption. reflexivity. Qed.

Lemma common_u64_r : forall t, standard t -> common t u64 = u64.
Proof. intros [s b] S. unfold standard in S. cbn [bits] in S. std S; subst; destruct s; reflexivity. Qed.
Lemma common_u64_l : forall t, standard t -> common u64 t = u64.
Proof. intros [s b] S. unfold standard in S. cbn [bits] in S. std S; subst; destruct s; reflexivity. Qed.

Lemma common_self : forall t, standard t -> common t t = promote t.
Proof. intros [s b] S. unfold standard in S. cbn [bits] in S. std S; subst; destruct s; reflexivity. Qed.

Lemma s32 : standard i32. Proof. vm_compute. tauto. Qed.
Lemma su32 : standard u32. Proof. vm_compute. tauto. Qed.
Lemma s64 : standard i64. Proof. vm_compute. tauto. Qed.
Lemma su64 : standard u64. Proof. vm_compute. tauto. Qed.
#[global] Hint Resolve s32 su32 s64 su64 common_standard promote_standard : lut.

Lemma fits_u64 : forall v, fits u64 v <-> 0 <= v < 2 ^ 64.
Proof. intro v. unfold fits. change (ity_min u64) with 0. change (ity_max u64) with (2 ^ 64 - 1). lia. Qed.
Lemma fits_i32 : forall v, fits i32 v <-> - 2 ^ 31 <= v < 2 ^ 31.
Proof. intro v. unfold fits. change (ity_min i32) with (- 2 ^ 31). change (ity_max i32) with (2 ^ 31 - 1). lia. Qed.
Lemma fits_i64 : forall v, fits i64 v <-> - 2 ^ 63 <= v < 2 ^ 63.
Proof. intro v. unfold fits. change (ity_min i64) with (- 2 ^ 63). change (ity_max i64) with (2 ^ 63 - 1). lia. Qed.
Lemma fits_u32 : forall v, fits u32 v <-> 0 <= v < 2 ^ 32.
Proof. intro v. unfold fits. change (ity_min u32) with 0. change (ity_max u32) with (2 ^ 32 - 1). lia. Qed.

Lemma fits_promote : forall t v, standard t -> fits t v -> fits (promote t) v.
Proof.
  intros [s b] v S [H1 H2]. unfold standard in S. cbn [bits] in S. unfold fits.
  std S; subst; destruct s; cbn in *; lia.
Qed.

Lemma fits_mid : forall t a b v, fits t a -> fits t b -> a <= v <= b -> fits t v.
Proof. unfold fits. intros. lia. Qed.

Lemma fits_zero : forall t, standard t -> fits t 0.
Proof.
  intros [s b] S. unfold standard in S. cbn [bits] in S. unfold fits. std S; subst; destruct s; cbn; lia.
Qed.

(* a difference of two arguments, neither larger than 2^31 apart *)
Lemma arg_sub : forall t a b, standard t -> fits t a -> fits t b -> 0 <= a - b < 2 ^ 31 ->
  csub (t, a) (t, b) = Some (promote t, a - b).
Proof.
  intros t a b S Fa Fb D. apply arith_ok; try reflexivity; auto with lut.
  - apply common_self; assumption.
  - apply fits_promote; assumption.
  - apply fits_promote; assumption.
  - destruct t as [s w]. unfold standard in S. cbn [bits] in S. unfold fits.
    std S; subst; destruct s; cbn; lia.
Qed.

Lemma common_i32 : forall AT a b, standard AT -> fits AT a -> fits i32 b -> - 2 ^ 31 <= a < 2 ^ 31 -> 0 <= a - b < 2 ^ 31 ->
  exists T, csub (AT, a) (i32, b) = Some (T, a - b).
Proof.
  intros AT a b SA Fa Fb La D. exists (common AT i32). unfold csub, arith. cbn [fst snd].
  apply fits_i32 in Fb. destruct AT as [s w]. unfold standard in SA. cbn [bits] in SA. unfold fits in Fa.
  assert (G : forall m, 0 < m -> 2 ^ 31 <= m -> ((a mod m - b mod m) mod m) = a - b).
  { intros m Hm Hm'. rewrite <- Zminus_mod. apply Z.mod_small. lia. }
  std SA; subst; destruct s;
    lazymatch goal with
    | |- context [common ?x i32] =>
      let c := eval vm_compute in (common x i32) in change (common x i32) with c
    end;
    lazymatch goal with
    | |- context [result (MkIty false ?w) _] =>
      unfold result; cbn [sg]; unfold convert; cbn [sg bits andb]; rewrite G by lia; reflexivity
    | |- context [result ?T _] =>
      rewrite (convert_id T a), (convert_id T b); [apply result_ok|..];
        lazymatch goal with
        | |- standard _ => vm_compute; tauto
        | |- _ => unfold fits; change (ity_min i32) with (- 2 ^ 31) in *; change (ity_max i32) with (2 ^ 31 - 1) in *;
           change (ity_min i64) with (- 2 ^ 63) in *; change (ity_max i64) with (2 ^ 63 - 1) in *; 
           unfold ity_min, ity_max; cbn [sg bits]; lia
        end
    end.
Qed.

(* ---- making a table ---- *)

Lemma convert_u64 : forall v, convert u64 v = v mod 2 ^ 64.
Proof. reflexivity. Qed.

Section Table.
Variables (AT : ity) (N : Z).
Hypothesis SA : standard AT.
Hypothesis SN : 2 <= N < 2 ^ 31.

Local Notation range_ok := (LutSpec.range_ok AT N).

Lemma range_fits : forall first last x, range_ok first last -> first <= x <= last -> fits AT x.
Proof using SA.
  intros first last x (_ & _ & _ & _ & _ & H1 & H2) Hx. apply (fits_mid AT first last); assumption.
Qed.

Lemma grid_bounds : forall first last i, first < last -> 0 <= i < N -> first <= grid N first last i <= last.
Proof using SN.
  intros first last i L Hi. unfold grid. split.
  - apply Z.div_le_lower_bound; [lia|]. nia.
  - apply Z.div_le_upper_bound; [lia|]. nia.
Qed.

(* the unsigned computation of a grid point *)
Lemma sample_at_mod : forall first last i, range_ok first last -> 0 <= i < N ->
  sample_at AT N first last i =
  Some (convert AT (((first * (N - 1) + i * (last - first)) mod 2 ^ 64) / (N - 1))).
Proof using SA SN.
  intros first last i R Hi. pose proof R as (_ & H1 & H2 & H3 & H4 & Ff & Fl).
  unfold sample_at. rewrite arg_sub by (assumption || lia).
  unfold cmul at 1. unfold arith. cbn [fst snd]. rewrite (common_u64_r AT SA).
  unfold result. change (sg u64) with false. cbv iota.
  unfold cmul, arith. cbn [fst snd]. rewrite (common_u64_l (promote AT)) by auto with lut.
  unfold result. change (sg u64) with false. cbv iota.
  unfold cadd, arith. cbn [fst snd]. change (common u64 u64) with u64.
  unfold result. change (sg u64) with false. cbv iota. rewrite !convert_u64.
  rewrite !Zmod_mod, <- !Zmult_mod, <- Zplus_mod.
  pose proof (Z.mod_pos_bound (first * (N - 1) + i * (last - first)) (2 ^ 64) ltac:(lia)) as B.
  set (S := (first * (N - 1) + i * (last - first)) mod 2 ^ 64) in *. clearbody S.
  rewrite (cdiv_ok u64 u64 S u64 (N - 1) (S / (N - 1)));
    [reflexivity|reflexivity|auto with lut|apply fits_u64; lia|apply fits_u64; lia|lia|apply Z.quot_div_nonneg; lia|].
  apply fits_u64. split; [apply Z.div_pos; lia|]. apply Z.div_lt_upper_bound; nia.
Qed.

Lemma convert_shift : forall t v m, standard t -> bits t <= 32 -> convert t (v + m * 2 ^ 32) = convert t v.
Proof.
  intros [s b] v m S L. unfold standard in S. cbn [bits] in *. unfold convert. cbn [sg bits].
  assert (D : exists c, 2 ^ 32 = c * 2 ^ b).
  { std S; subst; [exists (2 ^ 24)|exists (2 ^ 16)|exists 1|lia]; reflexivity. }
  destruct D as (c & D). rewrite D, Z.mul_assoc, Z_mod_plus_full. reflexivity.
Qed.

Lemma sample_at_ok : forall first last i, range_ok first last -> 0 <= i < N ->
  sample_at AT N first last i = Some (grid N first last i).
Proof using SA SN.
  intros first last i R Hi. rewrite sample_at_mod by assumption. f_equal.
  pose proof R as (H0 & H1 & H2 & H3 & H4 & Ff & Fl).
  pose proof (grid_bounds first last i ltac:(lia) Hi) as G.
  pose proof (range_fits first last _ R G) as FG. unfold grid in *.
  assert (P2 : 0 <= i * (last - first) < 2 ^ 61) by nia.
  destruct (Z_lt_le_dec (first * (N - 1) + i * (last - first)) 0) as [L|L].
  - destruct H0 as [H0|(HB & k & K & EK)]; [nia|].
    assert (LB : - 2 ^ 63 <= first * (N - 1) + i * (last - first)) by nia.
    set (S := first * (N - 1) + i * (last - first)) in *. clearbody S.
    replace (S mod 2 ^ 64) with (S + 2 ^ 64) by (apply Z.mod_unique with (-1); lia).
    assert (K31 : k < 31) by (apply (Z.pow_lt_mono_r_iff 2); lia).
    assert (E : 2 ^ 64 = 2 ^ (64 - k - 32) * 2 ^ 32 * (N - 1)).
    { rewrite EK, <- !Z.pow_add_r by lia. f_equal. lia. }
    rewrite E, Z.div_add by lia. rewrite convert_shift by assumption. apply convert_id; assumption.
  - rewrite Z.mod_small by nia. apply convert_id; assumption.
Qed.

Definition samples_of (f : Z -> Z) (first last : Z) : list Z :=
  map (fun i => f (grid N first last (Z.of_nat i))) (seq 0 (Z.to_nat N)).

Lemma sample_all_ok : forall f first last, range_ok first last -> forall l, (forall i, In i l -> Z.of_nat i < N) ->
  sample_all AT N f first last l = Some (map (fun i => f (grid N first last (Z.of_nat i))) l).
Proof using SA SN.
  intros f first last R. induction l as [|i l IH]; intro H; cbn [sample_all map]; [reflexivity|].
  rewrite sample_at_ok; [|exact R|split; [lia|apply H; left; reflexivity]].
  rewrite IH; [reflexivity|]. intros j Ij. apply H. right. exact Ij.
Qed.

Lemma create_ok : forall f first last, range_ok first last ->
  create AT N f first last =
  Some (MkTable (samples_of f first last) first (last - first) (last - first - 2 * N * first) (2 * (last - first))).
Proof using SA SN.
  intros f first last R. pose proof R as (H0 & H1 & H2 & H3 & H4 & Ff & Fl).
  assert (FB : - 2 ^ 30 < first < 2 ^ 30) by nia.
  unfold create. rewrite (cast_ok i32 AT first) by (auto with lut; apply fits_i32; lia). cbn [snd].
  rewrite arg_sub by (assumption || lia).
  rewrite (cast_ok i32 (promote AT) (last - first)) by (auto with lut; apply fits_i32; lia). cbn [snd].
  unfold cmul. rewrite (arith_ok Z.mul u64 i32 2 u64 N (2 * N));
    [|reflexivity|auto with lut|apply fits_u64; lia|apply fits_u64; lia|reflexivity|apply fits_u64; lia].
  assert (M : arith Z.mul (u64, 2 * N) (i32, first) = Some (u64, (2 * N * first) mod 2 ^ 64)).
  { unfold arith. cbn [fst snd]. change (common u64 i32) with u64. unfold result. change (sg u64) with false.
    cbv iota. rewrite !convert_u64, <- Zmult_mod. reflexivity. }
  rewrite M.
  assert (M2 : cast i32 (u64, (2 * N * first) mod 2 ^ 64) = (i32, 2 * N * first)).
  { unfold cast. cbn [snd]. rewrite <- (convert_id i32 (2 * N * first)) at 2 by (auto with lut; apply fits_i32; lia).
    f_equal. unfold convert. cbn [sg bits i32].
    replace ((2 * N * first) mod 2 ^ 64 mod 2 ^ 32) with ((2 * N * first) mod 2 ^ 32); [reflexivity|].
    apply Znumtheory.Zmod_div_mod; [lia|lia|]. exists (2 ^ 32). reflexivity. }
  rewrite M2.
  unfold csub. rewrite (arith_ok Z.sub i32 i32 (last - first) i32 (2 * N * first) (last - first - 2 * N * first));
    [|reflexivity|auto with lut|apply fits_i32; lia|apply fits_i32; lia|reflexivity|apply fits_i32; lia].
  rewrite (arith_ok Z.mul i32 i32 2 i32 (last - first) (2 * (last - first)));
    [|reflexivity|auto with lut|apply fits_i32; lia|apply fits_i32; lia|reflexivity|apply fits_i32; lia].
  rewrite sample_all_ok; [|exact R|intros i I; apply in_seq in I; lia].
  rewrite cast_ok by (auto with lut; apply fits_i32; lia). reflexivity.
Qed.

Lemma sample_ok : forall f first last a b c d i, 0 <= i < N ->
  sample (MkTable (samples_of f first last) a b c d) i = Some (f (grid N first last i)).
Proof using SN.
  intros f first last a b c d i Hi. unfold sample. rewrite (proj2 (Z.ltb_ge i 0)) by lia. cbn [samples].
  unfold samples_of. rewrite nth_error_map.
  assert (E : nth_error (seq 0 (Z.to_nat N)) (Z.to_nat i) = Some (Z.to_nat i)).
  { rewrite (nth_error_nth' _ 0%nat) by (rewrite seq_length; lia). rewrite seq_nth by lia. reflexivity. }
  rewrite E. cbn [option_map]. rewrite Z2Nat.id by lia. reflexivity.
Qed.

(* the index computed by the nearest lookup *)
Lemma index1_mod : forall t x, 0 < cache1 t < 2 ^ 31 ->
  index1 AT N t x = Some (convert i32 (((2 * (N - 1) * x + cache0 t) mod 2 ^ 64) / cache1 t)).
Proof using SA SN.
  intros t x C. unfold index1, cmul, cadd.
  rewrite (arith_ok Z.mul u64 i32 2 u64 (N - 1) (2 * (N - 1)));
    [|reflexivity|auto with lut|apply fits_u64; lia|apply fits_u64; lia|reflexivity|apply fits_u64; lia].
  unfold arith at 1. cbn [fst snd]. rewrite (common_u64_l AT SA).
  unfold result. change (sg u64) with false. cbv iota.
  unfold arith. cbn [fst snd]. change (common u64 i32) with u64. unfold result. change (sg u64) with false. cbv iota.
  rewrite !convert_u64. rewrite Zmult_mod_idemp_r, Zmult_mod_idemp_l, Zmod_mod, Zplus_mod_idemp_r, Zplus_mod_idemp_l.
  pose proof (Z.mod_pos_bound (2 * (N - 1) * x + cache0 t) (2 ^ 64) ltac:(lia)) as B.
  set (s := (2 * (N - 1) * x + cache0 t) mod 2 ^ 64) in *. clearbody s.
  rewrite (cdiv_ok u64 u64 s i32 (cache1 t) (s / cache1 t));
    [reflexivity|reflexivity|auto with lut|apply fits_u64; lia|apply fits_u64; lia|lia|apply Z.quot_div_nonneg; lia|].
  apply fits_u64. split; [apply Z.div_pos; lia|]. apply Z.div_lt_upper_bound; nia.
Qed.

(* ... whenever the exact value is not negative *)
Lemma index1_ok : forall t x i, 0 < cache1 t < 2 ^ 31 ->
  0 <= 2 * (N - 1) * x + cache0 t < 2 ^ 64 -> (2 * (N - 1) * x + cache0 t) / cache1 t = i -> i < 2 ^ 31 ->
  index1 AT N t x = Some i.
Proof using SA SN.
  intros t x i C P E L. rewrite index1_mod by exact C. rewrite Z.mod_small by exact P. rewrite E.
  rewrite convert_id; [reflexivity|auto with lut|]. apply fits_i32. split; [|exact L].
  rewrite <- E. apply Z.le_trans with 0; [lia|]. apply Z.div_pos; lia.
Qed.

(* the index and the weight of the linear lookup *)
Lemma index2_ok : forall t x, fits AT x -> fits i32 (m_first t) -> - 2 ^ 31 <= x < 2 ^ 31 ->
  0 <= x - m_first t <= m_length t -> 0 < m_length t < 2 ^ 31 -> (N - 1) * m_length t < 2 ^ 54 ->
  let tmp := 1024 * (N - 1) * (x - m_first t) / m_length t in
  let i := Z.min (tmp / 1024) (N - 2) in
  index2 AT N t x = Some (i, tmp - i * 1024).
Proof using SA SN.
  intros t x Fx Ff Hx Hd HL HM tmp i.
  assert (T1 : 0 <= tmp) by (apply Z.div_pos; nia).
  assert (T2 : tmp <= 1024 * (N - 1)) by (apply Z.div_le_upper_bound; nia).
  assert (T3 : 0 <= tmp / 1024) by (apply Z.div_pos; lia).
  assert (T4 : tmp / 1024 < 2 ^ 31) by (apply Z.div_lt_upper_bound; lia).
  pose proof (Z.div_mod tmp 1024 ltac:(lia)) as DM. pose proof (Z.mod_pos_bound tmp 1024 ltac:(lia)) as MB.
  assert (I1 : 0 <= i <= N - 2) by (unfold i; lia).
  assert (I2 : 0 <= tmp - i * 1024 <= 1024) by (unfold i; lia).
  unfold index2, cmul.
  rewrite (arith_ok Z.mul u64 u32 1024 u64 (N - 1) (1024 * (N - 1)));
    [|reflexivity|auto with lut|apply fits_u64; lia|apply fits_u64; lia|reflexivity|apply fits_u64; lia].
  destruct (common_i32 AT x (m_first t) SA Fx Ff Hx ltac:(lia)) as (T & ET). rewrite ET.
  rewrite cast_ok by (auto with lut; apply fits_i64; lia).
  rewrite (arith_ok Z.mul u64 u64 (1024 * (N - 1)) i64 (x - m_first t) (1024 * (N - 1) * (x - m_first t)));
    [|reflexivity|auto with lut|apply fits_u64; lia|apply fits_u64; lia|reflexivity|].
  2: { apply fits_u64. split; nia. }
  rewrite (cdiv_ok u64 u64 (1024 * (N - 1) * (x - m_first t)) i32 (m_length t) tmp);
    [|reflexivity|auto with lut|apply fits_u64; nia|apply fits_u64; lia|lia|apply Z.quot_div_nonneg; nia|apply fits_u64; lia].
  rewrite cast_ok by (auto with lut; apply fits_i64; lia).
  assert (SH : cshr (i64, tmp) 10 = Some (i64, tmp / 1024)).
  { unfold cshr. cbn [fst snd]. change (promote i64) with i64. change (2 ^ 10) with 1024.
    rewrite convert_id by (auto with lut; apply fits_i64; lia). apply result_ok; [auto with lut|apply fits_i64; lia]. }
  rewrite SH. rewrite (cast_ok i32 i64 (tmp / 1024)) by (auto with lut; apply fits_i32; lia).
  rewrite (cast_ok i32 u64 (N - 2)) by (auto with lut; apply fits_i32; lia). cbn [snd]. fold i.
  rewrite (cast_ok i64 i32 i) by (auto with lut; apply fits_i64; lia).
  assert (SL : cshl (i64, i) 10 = Some (i64, i * 1024)).
  { unfold cshl. cbn [fst snd]. change (promote i64) with i64. change (2 ^ 10) with 1024.
    rewrite convert_id by (auto with lut; apply fits_i64; lia). rewrite (proj2 (Z.ltb_ge i 0)) by lia.
    apply result_ok; [auto with lut|apply fits_i64; lia]. }
  rewrite SL. unfold csub.
  rewrite (arith_ok Z.sub i64 i64 tmp i64 (i * 1024) (tmp - i * 1024));
    [|reflexivity|auto with lut|apply fits_i64; lia|apply fits_i64; lia|reflexivity|apply fits_i64; lia].
  rewrite (cast_ok i32 i64) by (auto with lut; apply fits_i32; lia).
  rewrite (cast_ok u32 i32) by (auto with lut; apply fits_u32; lia). reflexivity.
Qed.

End Table.

(* ---- interpolation ---- *)

Lemma scale_fits : forall T y c, standard T -> fits T (1024 * y) -> 0 <= c <= 1024 -> fits T (c * y).
Proof.
  intros T y c S F Hc. pose proof (fits_zero T S) as Z0. unfold fits in *.
  destruct (Z_le_gt_dec 0 y); nia.
Qed.

Lemma quot_between : forall c y0 y1 a, 0 < c -> 0 <= a <= c ->
  between y0 y1 (Z.quot ((c - a) * y0 + a * y1) c).
Proof.
  intros c y0 y1 a Hc Ha. unfold between.
  assert (L : c * Z.min y0 y1 <= (c - a) * y0 + a * y1) by (destruct (Z.min_spec y0 y1) as [[? E]|[? E]]; rewrite E; nia).
  assert (U : (c - a) * y0 + a * y1 <= c * Z.max y0 y1) by (destruct (Z.max_spec y0 y1) as [[? E]|[? E]]; rewrite E; nia).
  set (s := (c - a) * y0 + a * y1) in *. clearbody s. split.
  - rewrite <- (Z.quot_mul (Z.min y0 y1) c) by lia. rewrite (Z.mul_comm _ c). apply Z.quot_le_mono; lia.
  - rewrite <- (Z.quot_mul (Z.max y0 y1) c) by lia. rewrite (Z.mul_comm _ c). apply Z.quot_le_mono; lia.
Qed.

Lemma common_u32 : forall t, standard t ->
  common u32 t = common u32 t /\ common (common u32 t) (common u32 t) = common u32 t /\
  common (common u32 t) u32 = common u32 t.
Proof. intros [s b] S. unfold standard in S. cbn [bits] in S. std S; subst; destruct s; repeat split; reflexivity. Qed.

Lemma interpolate_ok : forall VT a y0 y1, standard VT -> 0 <= a <= 1024 ->
  fits VT y0 -> fits VT y1 -> fits (common u32 VT) (1024 * y0) -> fits (common u32 VT) (1024 * y1) ->
  interpolate VT a y0 y1 = Some (Z.quot ((1024 - a) * y0 + a * y1) 1024).
Proof.
  intros VT a y0 y1 S Ha F0 F1 G0 G1. destruct (common_u32 VT S) as (_ & C1 & C2).
  assert (SW : standard (common u32 VT)) by auto with lut.
  assert (FS : fits (common u32 VT) ((1024 - a) * y0 + a * y1)).
  { unfold fits in *. destruct (Z_le_gt_dec y0 y1); nia. }
  assert (FQ : fits VT (Z.quot ((1024 - a) * y0 + a * y1) 1024)).
  { pose proof (quot_between 1024 y0 y1 a ltac:(lia) Ha) as B. unfold between, fits in *. lia. }
  assert (FK : forall c, 0 <= c <= 1024 -> fits (common u32 VT) c).
  { intros c Hc. assert (Q : fits u32 c) by (apply fits_u32; lia). clear - S Q Hc.
    destruct VT as [s b]. unfold standard in S. cbn [bits] in S. unfold fits in *.
    std S; subst; destruct s; cbn; lia. }
  set (W := common u32 VT) in *.
  unfold interpolate, csub, cmul, cadd.
  rewrite (arith_ok Z.sub u32 u32 1024 u32 a (1024 - a));
    [|reflexivity|auto with lut|apply fits_u32; lia|apply fits_u32; lia|reflexivity|apply fits_u32; lia].
  assert (One : fits W y0 /\ fits W y1).
  { split; [rewrite <- (Z.mul_1_l y0)|rewrite <- (Z.mul_1_l y1)]; apply scale_fits; (assumption || lia). }
  destruct One as [W0 W1].
  rewrite (arith_ok Z.mul W u32 (1024 - a) VT y0 ((1024 - a) * y0));
    [|reflexivity|exact SW|apply FK; lia|exact W0|reflexivity|apply scale_fits; (assumption || lia)].
  rewrite (arith_ok Z.mul W u32 a VT y1 (a * y1));
    [|reflexivity|exact SW|apply FK; lia|exact W1|reflexivity|apply scale_fits; (assumption || lia)].
  rewrite (arith_ok Z.add W W ((1024 - a) * y0) W (a * y1) ((1024 - a) * y0 + a * y1));
    [|exact C1|exact SW|apply scale_fits; (assumption || lia)|apply scale_fits; (assumption || lia)|reflexivity|exact FS].
  rewrite (cdiv_ok W W ((1024 - a) * y0 + a * y1) u32 1024 (Z.quot ((1024 - a) * y0 + a * y1) 1024));
    [|exact C2|exact SW|exact FS|apply FK; lia|lia|reflexivity|].
  - rewrite cast_ok; [reflexivity|exact S|exact FQ].
  - pose proof (quot_between 1024 y0 y1 a ltac:(lia) Ha) as B. unfold between, fits in *. lia.
Qed.

