From Coq Require Import List Bool Arith ZArith Lia.
From Verif Require Import ConvertModel ConfigModel IterModel IterSpec.
Import ListNotations.
Open Scope Z_scope.

(* ---- a class whose operations are right gives right programs ---- *)
Section Generic.
Context {I R : Type}.
Variable c : cls I R.
Variable stand : place -> I.
Variable elem : nat -> Z -> R.
Variable w : rules.
Notation ins q := (inside w (snd q)).
Record right := Right {
  r_start : forall b p, made w b p -> inside w p /\ start c b p = Val (stand (b, p));
  r_inc : forall q, ins q -> to w q 1 -> pre_inc c (stand q) = Val (stand (shift q 1));
  r_pinc : forall q, ins q -> to w q 1 -> post_inc c (stand q) = Val (stand (shift q 1), stand q);
  r_dec : forall q, ins q -> to w q (-1) -> pre_dec c (stand q) = Val (stand (shift q (-1)));
  r_pdec : forall q, ins q -> to w q (-1) -> post_dec c (stand q) = Val (stand (shift q (-1)), stand q);
  r_add : forall q d, ins q -> offset w d -> to w q d -> add_to c (stand q) d = Val (stand (shift q d));
  r_sub : forall q d, ins q -> offset w d -> to w q (- d) -> sub_from c (stand q) d = Val (stand (shift q (- d)));
  r_plus : forall q d, ins q -> offset w d -> to w q d -> plus c (stand q) d = Val (stand (shift q d));
  r_plusl : forall q d, from_left w -> ins q -> offset w d -> to w q d -> plus_l c d (stand q) = Val (stand (shift q d));
  r_minus : forall q d, ins q -> offset w d -> to w q (- d) -> minus c (stand q) d = Val (stand (shift q (- d)));
  r_minusl : forall q d, from_left w -> ins q -> offset w d -> to w q (- d) -> minus_l c d (stand q) = Val (stand (shift q (- d)));
  r_diff : forall q r, ins q -> ins r -> together q r -> gap w (snd q) (snd r) -> diff c (stand q) (stand r) = Val (snd q - snd r);
  r_eq : forall q r, together q r -> eq c (stand q) (stand r) = Val (snd q =? snd r);
  r_ne : forall q r, together q r -> ne c (stand q) (stand r) = Val (negb (snd q =? snd r));
  r_lt : forall q r, together q r -> lt c (stand q) (stand r) = Val (snd q <? snd r);
  r_gt : forall q r, together q r -> gt c (stand q) (stand r) = Val (snd r <? snd q);
  r_le : forall q r, together q r -> le c (stand q) (stand r) = Val (snd q <=? snd r);
  r_ge : forall q r, together q r -> ge c (stand q) (stand r) = Val (snd r <=? snd q);
  r_deref : forall q, ins q -> readable w (fst q) (snd q) -> deref c (stand q) = Val (elem (fst q) (snd q));
  r_arrow : forall q, ins q -> readable w (fst q) (snd q) -> arrow c (stand q) = Val (elem (fst q) (snd q)) }.

Hypothesis ok : right.
Lemma step_right st q o : (forall x, st x = stand (q x)) -> (forall x, ins (q x)) -> legal w q o ->
  exists st', step c st o = Val (st', snd (ideal elem q o)) /\
    (forall x, st' x = stand (fst (ideal elem q o) x)) /\ (forall x, ins (fst (ideal elem q o) x)).
Proof.
  intros Hs Hi Hl.
  assert (M : forall x (i : I) p, i = stand p -> ins p -> (forall y, set st x i y = stand (set q x p y)) /\ (forall y, ins (set q x p y))).
  { intros x i p -> Hp. split; intro y; unfold set; destruct (Nat.eqb y x); auto. }
  assert (M2 : forall x y (i j : I) p r, i = stand p -> ins p -> j = stand r -> ins r ->
     (forall z, set (set st x i) y j z = stand (set (set q x p) y r z)) /\ (forall z, ins (set (set q x p) y r z))).
  { intros x y i j p r -> Hp -> Hr. split; intro z; unfold set; destruct (Nat.eqb z y); auto; destruct (Nat.eqb z x); auto. }
  destruct o; cbn [step ideal fst snd legal] in *; unfold moved, told, read; rewrite ?Hs.
  - destruct (r_start ok b p Hl) as [Hp ->]. eexists; split; [reflexivity|]. apply M; auto.
  - eexists; split; [reflexivity|]. apply M; auto.
  - rewrite (r_inc ok); auto. eexists; split; [reflexivity|]. apply M; auto.
  - rewrite (r_pinc ok); auto. eexists; split; [reflexivity|]. apply M2; auto.
  - rewrite (r_dec ok); auto. eexists; split; [reflexivity|]. apply M; auto.
  - rewrite (r_pdec ok); auto. eexists; split; [reflexivity|]. apply M2; auto.
  - destruct Hl. rewrite (r_add ok); auto. eexists; split; [reflexivity|]. apply M; auto.
  - destruct Hl. rewrite (r_sub ok); auto. eexists; split; [reflexivity|]. apply M; auto.
  - destruct Hl. rewrite (r_plus ok); auto. eexists; split; [reflexivity|]. apply M; auto.
  - destruct Hl as (?&?&?). rewrite (r_plusl ok); auto. eexists; split; [reflexivity|]. apply M; auto.
  - destruct Hl. rewrite (r_minus ok); auto. eexists; split; [reflexivity|]. apply M; auto.
  - destruct Hl as (?&?&?). rewrite (r_minusl ok); auto. eexists; split; [reflexivity|]. apply M; auto.
  - destruct Hl. rewrite (r_diff ok); auto. eexists; split; [reflexivity|]. auto.
  - rewrite (r_eq ok); auto. eexists; split; [reflexivity|]. auto.
  - rewrite (r_ne ok); auto. eexists; split; [reflexivity|]. auto.
  - rewrite (r_lt ok); auto. eexists; split; [reflexivity|]. auto.
  - rewrite (r_gt ok); auto. eexists; split; [reflexivity|]. auto.
  - rewrite (r_le ok); auto. eexists; split; [reflexivity|]. auto.
  - rewrite (r_ge ok); auto. eexists; split; [reflexivity|]. auto.
  - rewrite (r_deref ok); auto. eexists; split; [reflexivity|]. auto.
  - rewrite (r_arrow ok); auto. eexists; split; [reflexivity|]. auto.
  - destruct Hl.
Qed.
Lemma run_right os : forall st q, (forall x, st x = stand (q x)) -> (forall x, ins (q x)) -> legal_run w elem q os ->
  exists st', run c st os = Val (st', snd (ideal_run elem q os)) /\
    (forall x, st' x = stand (fst (ideal_run elem q os) x)) /\ (forall x, ins (fst (ideal_run elem q os) x)).
Proof.
  induction os as [|o t IH]; intros st q Hs Hi Hl; [exists st; cbn; auto|].
  destruct Hl as [Hl Ht]. destruct (step_right _ _ _ Hs Hi Hl) as (st1 & E & Hs1 & Hi1).
  cbn [run ideal_run]. rewrite E. destruct (ideal elem q o) as [q1 a]. cbn [bind fst snd] in *.
  destruct (IH st1 q1 Hs1 Hi1 Ht) as (st2 & E2 & H2 & H3). rewrite E2.
  destruct (ideal_run elem q1 t) as [q2 l]. cbn [bind fst snd] in *. eauto.
Qed.
End Generic.

(* ---- integers ---- *)
Ltac types H := destruct H as (s & n & -> & [<- | [<- | [<- | [<- | []]]]]); destruct s.
Ltac ev e := let v := eval vm_compute in e in change e with v in *.
Ltac ints := unfold int32, ptrdiff, sizet in *; cbn [width signed is_signed] in *;
  repeat match goal with
  | |- context[promoted (Int ?s ?n)] => ev (promoted (Int s n)) | H : context[promoted (Int ?s ?n)] |- _ => ev (promoted (Int s n))
  end;
  repeat match goal with
  | |- context[tmin (Int ?s ?n)] => ev (tmin (Int s n)) | H : context[tmin (Int ?s ?n)] |- _ => ev (tmin (Int s n))
  | |- context[tmax (Int ?s ?n)] => ev (tmax (Int s n)) | H : context[tmax (Int ?s ?n)] |- _ => ev (tmax (Int s n))
  end.

Lemma pow_split n : 1 <= n -> 2 ^ n = 2 * 2 ^ (n - 1).
Proof. intro H. rewrite <- Z.pow_succ_r by lia. f_equal. lia. Qed.
Lemma cast_in t v : (exists s n, t = Int s n /\ 1 <= n) -> tmin t <= v <= tmax t -> cast t v = v.
Proof.
  intros (s & n & -> & Hn). unfold tmin, tmax, signed, is_signed, width, cast. cbn [is_signed].
  assert (P := pow_split n Hn). assert (0 < 2 ^ (n - 1)) by (apply Z.pow_pos_nonneg; lia).
  destruct s; cbn [andb]; intro H0.
  - destruct (Z.lt_ge_cases v 0).
    + rewrite <- (Z.mod_unique v (2 ^ n) (-1) (v + 2 ^ n)) by lia.
      destruct (Z.leb_spec (2 ^ (n - 1)) (v + 2 ^ n)); lia.
    + rewrite Z.mod_small by lia. destruct (Z.leb_spec (2 ^ (n - 1)) v); lia.
  - apply Z.mod_small. lia.
Qed.
(* adding a wrapped number is adding the number, up to wrapping *)
Lemma cast_congr s n v : 1 <= n -> exists k, cast (Int s n) v = v + k * 2 ^ n.
Proof.
  intro Hn. unfold cast. assert (0 < 2 ^ n) by (apply Z.pow_pos_nonneg; lia).
  pose proof (Z.div_mod v (2 ^ n) ltac:(lia)).
  destruct (s && _); [exists (- (v / 2 ^ n) - 1) | exists (- (v / 2 ^ n))]; lia.
Qed.
Lemma cast_shift s n v k : 1 <= n -> cast (Int s n) (v + k * 2 ^ n) = cast (Int s n) v.
Proof. intro Hn. unfold cast. assert (0 < 2 ^ n) by (apply Z.pow_pos_nonneg; lia). rewrite Z.mod_add by lia. reflexivity. Qed.
Lemma cast_range s n v : 1 <= n -> tmin (Int s n) <= cast (Int s n) v <= tmax (Int s n).
Proof.
  intro Hn. unfold cast, tmin, tmax, signed, is_signed, width. assert (0 < 2 ^ n) by (apply Z.pow_pos_nonneg; lia).
  pose proof (Z.mod_pos_bound v (2 ^ n) ltac:(lia)). pose proof (pow_split n Hn).
  destruct s; cbn [andb]; [destruct (Z.leb_spec (2 ^ (n - 1)) (v mod 2 ^ n))|]; lia.
Qed.
Lemma plain_pos t : plain t -> exists s n, t = Int s n /\ 1 <= n.
Proof. intros (s & n & -> & H). exists s, n. split; [reflexivity|]. cbn in H. lia. Qed.
Lemma arith_in t v : tmin t <= v <= tmax t -> arith t v = Val v.
Proof.
  intros [H1 H2]. unfold arith. apply Z.leb_le in H1, H2. rewrite H1, H2. reflexivity.
Qed.

(* ---- numeric_iterator ---- *)
Lemma promoted_in t v : plain t -> tmin t <= v <= tmax t -> tmin (promoted t) <= v <= tmax (promoted t).
Proof. intros H. types H; ints; lia. Qed.
Lemma assign_sum_in t a b : plain t -> tmin t <= a + b <= tmax t -> assign_sum t a b = Val (a + b).
Proof.
  intros Hp H. unfold assign_sum, sum. rewrite arith_in by (apply promoted_in; assumption). cbn [bind].
  rewrite cast_in; auto using plain_pos.
Qed.
Lemma assign_difference_in t a b : plain t -> tmin t <= a - b <= tmax t -> assign_difference t a b = Val (a - b).
Proof.
  intros Hp H. unfold assign_difference, difference. rewrite arith_in by (apply promoted_in; assumption). cbn [bind].
  rewrite cast_in; auto using plain_pos.
Qed.
(* with the offset wrapped first *)
Lemma arith_wraps t v : plain t -> (signed t = true -> 32 <= width t -> tmin t <= v <= tmax t) ->
  (width t < 32 -> tmin int32 <= v <= tmax int32) ->
  exists x k, arith (promoted t) v = Val x /\ x = v + k * 2 ^ width t.
Proof.
  intros Hp Hs Hn. unfold arith. destruct ((tmin (promoted t) <=? v) && (v <=? tmax (promoted t))) eqn:E.
  { exists v, 0. split; [reflexivity|lia]. }
  assert (N : ~ (tmin (promoted t) <= v <= tmax (promoted t))) by (intros [A B]; apply Z.leb_le in A, B; rewrite A, B in E; discriminate).
  assert (E2 : promoted t = t).
  { unfold promoted. destruct (Z.ltb_spec (width t) 32); [|reflexivity]. exfalso. apply N. unfold promoted.
    destruct (Z.ltb_spec (width t) 32); [auto|lia]. }
  rewrite E2 in *. destruct (signed t) eqn:S.
  - exfalso. apply N, Hs; [reflexivity|]. unfold promoted in E2. destruct (Z.ltb_spec (width t) 32); [|assumption].
    exfalso. apply N. rewrite <- E2. auto.
  - destruct Hp as (s & n & -> & Hin). destruct (cast_congr s n v) as [k Hk]; [cbn in Hin; lia|].
    exists (cast (Int s n) v), k. split; [reflexivity|exact Hk].
Qed.
Lemma small_sum t a d : plain t -> width t < 32 -> tmin t <= a <= tmax t -> tmin t <= d <= tmax t ->
  tmin int32 <= a + d <= tmax int32 /\ tmin int32 <= a - d <= tmax int32.
Proof. intros H. types H; ints; lia. Qed.
Lemma assign_sum_cast t a d : plain t -> tmin t <= a <= tmax t -> tmin t <= a + d <= tmax t ->
  (signed t = true -> 32 <= width t -> tmin t <= d <= tmax t) -> assign_sum t a (cast t d) = Val (a + d).
Proof.
  intros Hp Ha Hr Hs. destruct (plain_pos t Hp) as (s & n & E & Hn).
  destruct (cast_congr s n d Hn) as [k Hk]. assert (Hc := cast_range s n d Hn). rewrite <- E in Hk, Hc.
  unfold assign_sum, sum. destruct (arith_wraps t (a + cast t d)) as (x & k' & -> & ->); auto.
  - intros S W. rewrite cast_in; [exact Hr|eauto|auto].
  - intro W. apply small_sum with (t := t); auto.
  - cbn [bind]. f_equal. rewrite Hk. rewrite E. cbn [width].
    replace (a + (d + k * 2 ^ n) + k' * 2 ^ n) with ((a + d) + (k + k') * 2 ^ n) by lia.
    rewrite cast_shift by assumption. rewrite <- E. apply cast_in; eauto.
Qed.
Lemma assign_difference_cast t a d : plain t -> tmin t <= a <= tmax t -> tmin t <= a - d <= tmax t ->
  (signed t = true -> 32 <= width t -> tmin t <= d <= tmax t) -> assign_difference t a (cast t d) = Val (a - d).
Proof.
  intros Hp Ha Hr Hs. destruct (plain_pos t Hp) as (s & n & E & Hn).
  destruct (cast_congr s n d Hn) as [k Hk]. assert (Hc := cast_range s n d Hn). rewrite <- E in Hk, Hc.
  unfold assign_difference, difference. destruct (arith_wraps t (a - cast t d)) as (x & k' & -> & ->); auto.
  - intros S W. rewrite cast_in; [exact Hr|eauto|auto].
  - intro W. apply small_sum with (t := t); auto.
  - cbn [bind]. f_equal. rewrite Hk. rewrite E. cbn [width].
    replace (a - (d + k * 2 ^ n) + k' * 2 ^ n) with ((a - d) + (k' - k) * 2 ^ n) by lia.
    rewrite cast_shift by assumption. rewrite <- E. apply cast_in; eauto.
Qed.
(* narrow_cast of a number both types have *)
Lemma narrow_in debug to from v : (exists s n, to = Int s n /\ 1 <= n) -> (exists s n, from = Int s n /\ 1 <= n) ->
  tmin to <= v <= tmax to -> tmin from <= v <= tmax from -> narrow debug to from v = Val v.
Proof.
  intros Ht Hf H1 H2. unfold narrow, narrow_cast. rewrite !cast_in; auto; rewrite ?cast_in; auto.
  rewrite Z.eqb_refl, Bool.eqb_reflx. destruct debug; [|reflexivity].
  destruct (Bool.eqb (is_signed to) (is_signed from)); reflexivity.
Qed.
Lemma narrow_release to from v : narrow false to from v = Val (cast to v).
Proof. reflexivity. Qed.
Lemma ptrdiff_pos : exists s n, ptrdiff = Int s n /\ 1 <= n.
Proof. exists true, 64. split; [reflexivity|lia]. Qed.

Lemma n_add t debug q d : plain t -> inside (numeric_rules t debug) (snd q) -> offset (numeric_rules t debug) d ->
  to (numeric_rules t debug) q d -> n_add_to t debug (snd q) d = Val (snd q + d).
Proof.
  intros Hp Hi (Ho1 & Ho2 & Ho3) Ht. unfold to, inside in *. cbn [pmin pmax numeric_rules] in *. unfold n_add_to. destruct debug.
  - destruct (Ho3 eq_refl) as [Hd Hd2]. rewrite narrow_in; auto using plain_pos, ptrdiff_pos. cbn [bind].
    unfold difference. rewrite arith_in.
    + cbn [bind requires]. destruct (Z.leb_spec (snd q) (tmax t - d)); [|lia]. apply assign_sum_in; assumption.
    + clear - Hp Hi Hd Hd2. types Hp; ints; lia.
  - rewrite narrow_release. cbn [bind]. apply assign_sum_cast; auto.
Qed.
Lemma n_sub t debug q d : plain t -> inside (numeric_rules t debug) (snd q) -> offset (numeric_rules t debug) d ->
  to (numeric_rules t debug) q (- d) -> n_sub_from t debug (snd q) d = Val (snd q + - d).
Proof.
  intros Hp Hi (Ho1 & Ho2 & Ho3) Ht. unfold to, inside in *. cbn [pmin pmax numeric_rules] in *. rewrite Z.add_opp_r in *. unfold n_sub_from. destruct debug.
  - destruct (Ho3 eq_refl) as [Hd Hd2]. rewrite narrow_in; auto using plain_pos, ptrdiff_pos. cbn [bind].
    unfold sum. rewrite arith_in.
    + cbn [bind requires]. destruct (Z.leb_spec (tmin t + d) (snd q)); [|lia]. apply assign_difference_in; assumption.
    + clear - Hp Hi Hd Hd2. types Hp; ints; lia.
  - rewrite narrow_release. cbn [bind]. apply assign_difference_cast; auto.
Qed.
Lemma n_difference t debug a b : plain t -> inside (numeric_rules t debug) a -> inside (numeric_rules t debug) b ->
  gap (numeric_rules t debug) a b -> n_diff t a b = Val (a - b).
Proof.
  intros Hp Ha Hb (G1 & G2 & G3). unfold inside in *. cbn [pmin pmax numeric_rules] in *. unfold n_diff, difference.
  destruct (Z.eq_dec (width t) 64) as [W|W].
  - destruct (arith_wraps t (a - b)) as (x & k & -> & ->); auto; [intro; lia|]. cbn [bind]. f_equal.
    rewrite W. unfold ptrdiff. rewrite cast_shift by lia. apply cast_in; [exact ptrdiff_pos|exact G1].
  - rewrite arith_in.
    + cbn [bind]. f_equal. apply cast_in; [exact ptrdiff_pos|exact G1].
    + clear G1. destruct (Z.lt_ge_cases (width t) 32).
      * clear G2 G3. types Hp; ints; lia.
      * assert (E : width t = 32) by (destruct Hp as (s & n & -> & Hin); cbn in *; lia).
        types Hp; try discriminate E; cbn [signed is_signed] in *.
        -- apply promoted_in; [exists true, 32; cbn; auto 6|]. apply G2; [reflexivity|cbn; lia].
        -- specialize (G3 eq_refl eq_refl). ints; lia.
Qed.
Lemma numeric_right t debug : plain t ->
  right (numeric t debug) (fun q => snd q) (fun _ p => p) (numeric_rules t debug).
Proof.
  intro Hp.
  assert (I1 : forall m, tmin t <= m <= tmax t -> tmin t <= m + 1 <= tmax t -> n_pre_inc t debug m = Val (m + 1)).
  { intros m H1 H2. unfold n_pre_inc, requires. destruct debug; [destruct (Z.ltb_spec m (tmax t)); [|lia]|]; apply assign_sum_in; auto. }
  assert (D1 : forall m, tmin t <= m <= tmax t -> tmin t <= m + -1 <= tmax t -> n_pre_dec t debug m = Val (m + -1)).
  { intros m H1 H2. unfold n_pre_dec, requires. replace (m + -1) with (m - 1) in * by lia.
    destruct debug; [destruct (Z.ltb_spec (tmin t) m); [|lia]|]; apply assign_difference_in; auto. }
  constructor; try reflexivity; try (cbn [numeric start plus_l minus_l from_left numeric_rules]; tauto).
  - intros q H1 H2. apply I1; assumption.
  - intros q H1 H2. generalize (I1 _ H1 H2). cbn. unfold n_pre_inc, n_post_inc, requires. destruct debug; [destruct (snd q <? tmax t); [|discriminate]|];
      intros E; rewrite E; reflexivity.
  - intros q H1 H2. apply D1; assumption.
  - intros q H1 H2. generalize (D1 _ H1 H2). cbn. unfold n_pre_dec, n_post_dec, requires. destruct debug; [destruct (tmin t <? snd q); [|discriminate]|];
      intros E; rewrite E; reflexivity.
  - intros q d H1 H2 H3. apply n_add; assumption.
  - intros q d H1 H2 H3. apply n_sub; assumption.
  - intros q d H1 H2 H3. apply n_add; assumption.
  - intros q d H1 H2 H3. apply n_sub; assumption.
  - intros q r H1 H2 _ H3. apply n_difference with (debug := debug); assumption.
Qed.

(* ---- config_iterator ---- *)
Lemma plain_ptrdiff : plain ptrdiff.
Proof. exists true, 64. cbn. auto 6. Qed.
Lemma narrow_size debug v : 0 <= v <= tmax ptrdiff -> narrow debug ptrdiff sizet v = Val v.
Proof. intro H. apply narrow_in; try (eexists; eexists; split; [reflexivity|lia]); ints; lia. Qed.
Lemma c_entry_in cfg q : fits cfg -> 0 <= snd q < Z.of_nat (size (cfg (fst q))) ->
  c_entry cfg (cplace cfg q) = celem cfg (fst q) (snd q).
Proof.
  intros Hf Hr. unfold c_entry, celem, cplace, iterate. cbn [m_backend m_idx].
  assert (H := Hf (fst q)). rewrite cast_in; [|eexists; eexists; split; [reflexivity|lia]|ints; lia].
  rewrite (nth_indep _ no_entry (entry_at (cfg (fst q)) 0)) by (rewrite map_length, seq_length; lia).
  rewrite map_nth, seq_nth by lia. reflexivity.
Qed.
Lemma c_inc cfg debug q : to (conf_rules cfg debug) q 1 -> inside (conf_rules cfg debug) (snd q) ->
  c_pre_inc debug (cplace cfg q) = Val (cplace cfg (shift q 1)).
Proof.
  unfold to, inside. cbn [pmin pmax conf_rules]. intros H H0. unfold c_pre_inc, requires, cplace. cbn [m_idx].
  rewrite assign_sum_in; auto using plain_ptrdiff. cbn [bind].
  destruct debug; [destruct (Z.ltb_spec (snd q) (tmax ptrdiff)); [|lia]|]; reflexivity.
Qed.
Lemma c_dec cfg debug q : to (conf_rules cfg debug) q (-1) -> inside (conf_rules cfg debug) (snd q) ->
  c_pre_dec debug (cplace cfg q) = Val (cplace cfg (shift q (-1))).
Proof.
  unfold to, inside. cbn [pmin pmax conf_rules]. intros H H0. unfold c_pre_dec, requires, cplace. cbn [m_idx].
  replace (snd q + -1) with (snd q - 1) in * by lia.
  rewrite assign_difference_in; auto using plain_ptrdiff. cbn [bind].
  destruct debug; [destruct (Z.ltb_spec (tmin ptrdiff) (snd q)); [|lia]|]; reflexivity.
Qed.
Lemma c_adds cfg debug q d : inside (conf_rules cfg debug) (snd q) -> offset (conf_rules cfg debug) d ->
  to (conf_rules cfg debug) q d -> c_add_to debug (cplace cfg q) d = Val (cplace cfg (shift q d)).
Proof.
  unfold to, inside. cbn [pmin pmax offset conf_rules]. intros H (O1 & O2) H0. unfold c_add_to, cplace. cbn [m_idx].
  rewrite assign_sum_in; auto using plain_ptrdiff. cbn [bind]. destruct debug; [|reflexivity].
  specialize (O2 eq_refl). unfold difference. rewrite arith_in by (apply promoted_in; [apply plain_ptrdiff|ints; lia]).
  cbn [bind requires]. destruct (Z.leb_spec (snd q) (tmax ptrdiff - d)); [reflexivity|lia].
Qed.
Lemma c_subs cfg debug q d : inside (conf_rules cfg debug) (snd q) -> offset (conf_rules cfg debug) d ->
  to (conf_rules cfg debug) q (- d) -> c_sub_from debug (cplace cfg q) d = Val (cplace cfg (shift q (- d))).
Proof.
  unfold to, inside. cbn [pmin pmax offset conf_rules]. intros H (O1 & O2) H0. unfold c_sub_from, cplace. cbn [m_idx].
  rewrite Z.add_opp_r in *.
  rewrite assign_difference_in; auto using plain_ptrdiff. cbn [bind]. destruct debug; [|reflexivity].
  specialize (O2 eq_refl). unfold sum. rewrite arith_in by (apply promoted_in; [apply plain_ptrdiff|ints; lia]).
  cbn [bind requires]. destruct (Z.leb_spec (tmin ptrdiff + d) (snd q)); [reflexivity|lia].
Qed.
Lemma c_same cfg debug q r A (k : out A) : together q r -> same debug (cplace cfg q) (cplace cfg r) k = k.
Proof. unfold together, same, requires. cbn [cplace m_backend]. intros ->. rewrite Nat.eqb_refl. destruct debug; reflexivity. Qed.
Lemma c_read cfg debug q : fits cfg -> readable (conf_rules cfg debug) (fst q) (snd q) ->
  c_deref debug cfg (cplace cfg q) = Val (celem cfg (fst q) (snd q)).
Proof.
  intros Hf H. cbn [readable conf_rules] in H. unfold c_deref. rewrite c_entry_in by assumption. unfold requires. destruct debug; [|reflexivity].
  unfold is_dereferencable. cbn [cplace m_backend m_idx m_size].
  destruct (cfg (fst q)); cbn [size] in H |- *; [|lia].
  destruct (Z.leb_spec 0 (snd q)), (Z.ltb_spec (snd q) (Z.of_nat (csize c))); try lia; reflexivity.
Qed.
Lemma conf_right cfg debug : fits cfg ->
  right (confit debug cfg) (cplace cfg) (celem cfg) (conf_rules cfg debug).
Proof.
  intro Hf. constructor; cbn [confit start pre_inc post_inc pre_dec post_dec add_to sub_from plus plus_l minus minus_l diff eq ne lt gt le ge deref arrow].
  - intros b p H. cbn [made conf_rules] in H. split; [unfold inside; cbn [pmin pmax conf_rules]; ints; lia|].
    unfold c_start. rewrite !narrow_size; [reflexivity| |assumption]. split; [lia|apply Hf].
  - intros. apply c_inc; assumption.
  - intros q H1 H2. unfold c_post_inc. rewrite c_inc by assumption. cbn [bind]. unfold requires, cplace at 1. cbn [m_idx].
    unfold to, inside in H2. cbn [pmax conf_rules] in H2.
    destruct debug; [destruct (Z.ltb_spec (snd q) (tmax ptrdiff)); [|lia]|]; reflexivity.
  - intros. apply c_dec; assumption.
  - intros q H1 H2. unfold c_post_dec. rewrite c_dec by assumption. cbn [bind]. unfold requires, cplace at 1. cbn [m_idx].
    unfold to, inside in H2. cbn [pmin pmax conf_rules] in H2.
    destruct debug; [destruct (Z.ltb_spec (tmin ptrdiff) (snd q)); [|lia]|]; reflexivity.
  - intros. apply c_adds; assumption.
  - intros. apply c_subs; assumption.
  - intros. apply c_adds; assumption.
  - intros. apply c_adds; assumption.
  - intros. apply c_subs; assumption.
  - intros. apply c_subs; assumption.
  - intros q r _ _ Ht Hg. unfold c_diff. rewrite c_same by assumption. apply arith_in.
    apply promoted_in; [apply plain_ptrdiff|exact Hg].
  - intros. rewrite c_same by assumption. reflexivity.
  - intros. rewrite c_same by assumption. reflexivity.
  - intros. rewrite c_same by assumption. reflexivity.
  - intros. rewrite c_same by assumption. reflexivity.
  - intros. rewrite c_same by assumption. reflexivity.
  - intros. rewrite c_same by assumption. reflexivity.
  - intros. apply c_read; assumption.
  - intros. apply c_read; assumption.
Qed.

(* ---- loops ---- *)
Lemma firstn_elem cfg b k : (k < size (cfg b))%nat ->
  skipn k (iterate (cfg b)) = celem cfg b (Z.of_nat k) :: skipn (S k) (iterate (cfg b)).
Proof.
  intro H. unfold celem. rewrite Nat2Z.id.
  assert (L : length (iterate (cfg b)) = size (cfg b)) by (unfold iterate; rewrite map_length, seq_length; reflexivity).
  generalize dependent (iterate (cfg b)). intros l L. rewrite <- L in H. clear L. revert k H.
  induction l as [|a l IH]; intros k H; [cbn in H; lia|]. destruct k; [reflexivity|]. cbn in H |- *. apply IH. lia.
Qed.
Section Loops.
Variable cfg : nat -> option conf.
Variable debug : bool.
Hypothesis Hf : fits cfg.
Variable b : nat.
Let n := size (cfg b).
Let at_ (k : nat) : citer := cplace cfg (b, Z.of_nat k).
Lemma in_range k : (k <= n)%nat -> tmin ptrdiff <= Z.of_nat k <= tmax ptrdiff.
Proof. intro H. assert (A := Hf b). fold n in A. ints; lia. Qed.
Lemma at_inc k : (k < n)%nat -> c_pre_inc debug (at_ k) = Val (at_ (S k)).
Proof.
  intro H. unfold at_. rewrite c_inc.
  - unfold shift. cbn [fst snd]. rewrite Nat2Z.inj_succ. reflexivity.
  - unfold to, inside. cbn [pmin pmax conf_rules snd]. assert (A := in_range (S k)). lia.
  - unfold inside. cbn [pmin pmax conf_rules snd]. apply in_range. lia.
Qed.
Lemma at_dec k : (S k <= n)%nat -> c_pre_dec debug (at_ (S k)) = Val (at_ k).
Proof.
  intro H. unfold at_. rewrite c_dec.
  - unfold shift. cbn [fst snd]. rewrite Nat2Z.inj_succ. do 3 f_equal. lia.
  - unfold to, inside. cbn [pmin pmax conf_rules snd]. assert (A := in_range k). lia.
  - unfold inside. cbn [pmin pmax conf_rules snd]. apply in_range. lia.
Qed.
Lemma at_read k : (k < n)%nat -> c_deref debug cfg (at_ k) = Val (celem cfg b (Z.of_nat k)).
Proof. intro H. unfold at_. apply (c_read cfg debug (b, Z.of_nat k)); [exact Hf|]. cbn [readable conf_rules fst snd]. fold n. lia. Qed.
Lemma at_ne i j : ne (confit debug cfg) (at_ i) (at_ j) = Val (negb (Nat.eqb i j)).
Proof.
  cbn [confit ne]. unfold at_. rewrite c_same by reflexivity. cbn [cplace m_idx snd]. do 2 f_equal.
  destruct (Nat.eqb_spec i j), (Z.eqb_spec (Z.of_nat i) (Z.of_nat j)); lia.
Qed.
Lemma loop_from m : forall k f, (k + m = n)%nat -> (m < f)%nat ->
  c_loop debug cfg f (at_ k) (at_ n) = Val (skipn k (iterate (cfg b))).
Proof.
  induction m as [|m IH]; intros k f Hk Hfu; (destruct f as [|f]; [lia|]); cbn [c_loop]; rewrite at_ne; cbn [bind].
  - replace k with n by lia. rewrite Nat.eqb_refl. cbn [negb]. rewrite skipn_all2; [reflexivity|].
    unfold iterate. rewrite map_length, seq_length. unfold n. lia.
  - destruct (Nat.eqb_spec k n); [lia|]. cbn [negb]. rewrite at_read by lia. cbn [bind]. rewrite at_inc by lia. cbn [bind].
    rewrite IH by lia. cbn [bind]. rewrite (firstn_elem cfg b k) by (fold n; lia). reflexivity.
Qed.
Lemma drain_from m : forall k f, (k + m = n)%nat -> (m < f)%nat ->
  c_drain debug cfg f (at_ k) = Val (skipn k (iterate (cfg b))).
Proof.
  assert (Hn : forall k, c_has_next (at_ k) = (k <? n)%nat).
  { intro k. unfold c_has_next, at_. cbn [cplace m_idx m_size fst snd]. fold n.
    destruct (Z.ltb_spec (Z.of_nat k) (Z.of_nat n)), (Nat.ltb_spec k n); lia. }
  induction m as [|m IH]; intros k f Hk Hfu; (destruct f as [|f]; [lia|]); cbn [c_drain]; rewrite Hn.
  - destruct (Nat.ltb_spec k n); [lia|]. rewrite skipn_all2; [reflexivity|].
    unfold iterate. rewrite map_length, seq_length. fold n. lia.
  - destruct (Nat.ltb_spec k n); [|lia].
    assert (E : c_next debug cfg (at_ k) = Val (at_ (S k), celem cfg b (Z.of_nat k))).
    { unfold c_next. rewrite Hn. destruct (Nat.ltb_spec k n); [|lia].
      change (at_ k) with (cplace cfg (b, Z.of_nat k)).
      rewrite (c_entry_in cfg (b, Z.of_nat k)) by (cbn [fst snd]; fold n; auto; lia).
      cbn [cplace m_idx snd]. rewrite assign_sum_in by (auto using plain_ptrdiff; assert (A := in_range (S k)); lia).
      cbn [bind]. unfold requires, at_, at_idx, cplace. cbn [m_backend m_size fst snd]. rewrite Nat2Z.inj_succ.
      destruct debug; reflexivity. }
    rewrite E. cbn [bind]. rewrite IH by lia. cbn [bind]. rewrite (firstn_elem cfg b k) by (fold n; lia). reflexivity.
Qed.
Lemma firstn_last k : (k < n)%nat ->
  rev (firstn (S k) (iterate (cfg b))) = celem cfg b (Z.of_nat k) :: rev (firstn k (iterate (cfg b))).
Proof.
  intro H. unfold celem. rewrite Nat2Z.id.
  assert (L : length (iterate (cfg b)) = n) by (unfold iterate; rewrite map_length, seq_length; reflexivity).
  generalize dependent (iterate (cfg b)). intros l L. rewrite <- L in H. clear L.
  rewrite <- (rev_unit (firstn k l)). f_equal. revert k H.
  induction l as [|a l IH]; intros k H; [cbn in H; lia|]. destruct k; [reflexivity|]. cbn [firstn app nth]. f_equal. apply IH. cbn in H. lia.
Qed.
Lemma reverse_from k : forall f, (k <= n)%nat -> (k < f)%nat ->
  c_reverse debug cfg f (at_ k) (at_ 0) = Val (rev (firstn k (iterate (cfg b)))).
Proof.
  induction k as [|k IH]; intros f Hk Hfu; (destruct f as [|f]; [lia|]); cbn [c_reverse]; rewrite at_ne; cbn [bind].
  - reflexivity.
  - cbn [Nat.eqb negb]. rewrite at_dec by lia. cbn [bind]. rewrite at_read by lia. cbn [bind].
    rewrite IH by lia. cbn [bind]. rewrite firstn_last by lia. reflexivity.
Qed.
Lemma begin_at : c_start debug cfg b 0 = Val (at_ 0).
Proof.
  unfold c_start. rewrite !narrow_size; [reflexivity| |cbn; lia]. split; [lia|apply Hf].
Qed.
Lemma end_at : c_start debug cfg b (Z.of_nat n) = Val (at_ n).
Proof.
  unfold c_start. assert (0 <= Z.of_nat n <= tmax ptrdiff) by (split; [lia|apply Hf]). rewrite !narrow_size; auto.
Qed.
End Loops.
