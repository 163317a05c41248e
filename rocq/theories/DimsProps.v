(* C110: extents and strides as values *)
From Coq Require Import List Bool Arith ZArith Lia.
From Verif Require Import ConvertModel DimsModel DimsSpec DimsProofs.
Import ListNotations.
Open Scope Z_scope.

(* dims(...) and strides(...) of numbers that the size type has are these numbers,
   in both builds *)
Theorem C110_made : forall debug f t args, sized t -> Forall (fun a => sized (fst a) /\ fits (fst a) (snd a)) args ->
  (f = Strides -> args <> []) -> Forall (fun a => fits t (snd a)) args ->
  exists d, make debug f t args = Some (Ok d) /\ fam d = f /\ ty d = t /\ holds d (map snd args).
Proof.
  intros debug f t args S G N F. exists (MkDims f t (map Some (map snd args))). split.
  - unfold make. rewrite (narrow_all_fits debug t args S G F), map_map. destruct f; [reflexivity|].
    destruct args; [exfalso; apply N; reflexivity|reflexivity].
  - repeat split; cbn [slots ty]. apply Forall_map. exact F.
Qed.
(* another number stops a debug build and is wrapped in a release build *)
Theorem C110_made_badly : forall f t args, sized t -> Forall (fun a => sized (fst a) /\ fits (fst a) (snd a)) args ->
  Exists (fun a => ~ fits t (snd a)) args ->
  make true f t args = Some Stopped /\
  exists d l, make false f t args = Some (Ok d) /\ holds d l /\ Forall2 (wrapped t) (map snd args) l.
Proof.
  intros f t args S G E. assert (N : args <> []) by (intros ->; inversion E). split.
  - unfold make. rewrite (narrow_all_misfit t args S G E). destruct f; [reflexivity|]. destruct args; [congruence|reflexivity].
  - exists (MkDims f t (map Some (map (fun a => cast t (snd a)) args))), (map (fun a => cast t (snd a)) args).
    split; [|split].
    + unfold make. rewrite narrow_all_release, map_map. destruct f; [reflexivity|]. destruct args; [congruence|reflexivity].
    + split; [reflexivity|]. cbn [ty]. apply Forall_map, Forall_forall. intros. apply fits_cast. exact S.
    + clear -S. induction args; constructor; auto. apply cast_wrapped. exact S.
Qed.
Example C110_made_ex :
  make true Extents (Int false 8) [(Int true 32, 3); (Int true 64, 255)] = Some (Ok (MkDims Extents (Int false 8) [Some 3; Some 255])) /\
  make true Extents (Int false 8) [(Int true 32, 3); (Int true 64, 256)] = Some Stopped /\
  make false Extents (Int false 8) [(Int true 32, -1); (Int true 64, 256)] = Some (Ok (MkDims Extents (Int false 8) [Some 255; Some 0])) /\
  make true Strides (Int false 64) [] = None /\ make true Extents (Int false 64) [] = Some (Ok (MkDims Extents (Int false 64) [])).
Proof. repeat split. Qed.

(* from a range of as many numbers: all of them, each wrapped and none checked *)
Theorem C110_range : forall debug f t n vs, sized t -> length vs = n ->
  exists d l, from_range debug f t n vs = Ok d /\ fam d = f /\ ty d = t /\ holds d l /\ Forall2 (wrapped t) vs l.
Proof.
  intros debug f t n vs S <-. exists (MkDims f t (map Some (map (cast t) vs))), (map (cast t) vs). split; [|split; [|split; [|split]]].
  - destruct vs as [|v vs]; [reflexivity|]. unfold from_range. cbn [length]. rewrite Nat.eqb_refl, Nat.ltb_irrefl, andb_false_r, Nat.sub_diag.
    rewrite app_nil_r, map_map. reflexivity.
  - reflexivity.
  - reflexivity.
  - split; [reflexivity|]. cbn [ty]. apply Forall_map, Forall_forall. intros. apply fits_cast. exact S.
  - induction vs; constructor; auto. apply cast_wrapped. exact S.
Qed.
(* of another number of them: zero dimensions take any range; else a debug build
   stops; a release build writes past the end if there are too many, and if there
   are too few the rest of the extents are 0 and the rest of the strides undefined *)
Theorem C110_range_badly : forall f t n vs, sized t -> length vs <> n ->
  (n = 0%nat -> forall debug, from_range debug f t n vs = Ok (MkDims f t [])) /\
  (n <> 0%nat -> from_range true f t n vs = Stopped) /\
  (n <> 0%nat -> (n < length vs)%nat -> from_range false f t n vs = Undefined) /\
  ((length vs < n)%nat -> exists d, from_range false f t n vs = Ok d /\ rank d = n /\
     forall i, (length vs <= i < n)%nat -> read d i = match f with Extents => Ok 0 | Strides => Undefined end).
Proof.
  intros f t n vs S L. split; [|split; [|split]].
  - intros -> debug. reflexivity.
  - intro N. unfold from_range. destruct n; [congruence|]. apply Nat.eqb_neq in L. rewrite L. reflexivity.
  - intros N G. unfold from_range. destruct n; [congruence|]. apply Nat.ltb_lt in G. cbn [andb]. rewrite G. reflexivity.
  - intro G. exists (MkDims f t (map (fun v => Some (cast t v)) vs ++ repeat (blank f) (n - length vs))). split; [|split].
    + unfold from_range. destruct n; [lia|]. cbn [andb]. destruct (Nat.ltb_spec (Datatypes.S n) (length vs)); [lia|reflexivity].
    + unfold rank. cbn [slots]. rewrite app_length, map_length, repeat_length. lia.
    + intros i Hi. unfold read. cbn [slots].
      assert (E : nth_error (map (fun v => Some (cast t v)) vs ++ repeat (blank f) (n - length vs)) i = Some (blank f)).
      { rewrite nth_error_app2 by (rewrite map_length; lia). rewrite map_length.
        rewrite (nth_error_nth' _ (blank f)) by (rewrite repeat_length; lia). f_equal.
        assert (X : forall (k j : nat) (x : option Z), nth j (repeat x k) x = x).
        { clear. induction k; intros [|j] x; cbn; auto. }
        apply X. }
      rewrite E. destruct (map (fun v => Some (cast t v)) vs ++ repeat (blank f) (n - length vs)) eqn:Z.
      * destruct i; discriminate.
      * destruct f; reflexivity.
Qed.
Example C110_range_ex :
  from_range true Extents (Int false 8) 2 [300; -1] = Ok (MkDims Extents (Int false 8) [Some 44; Some 255]) /\
  from_range false Extents (Int false 8) 3 [7] = Ok (MkDims Extents (Int false 8) [Some 7; Some 0; Some 0]) /\
  from_range false Strides (Int false 8) 3 [7] = Ok (MkDims Strides (Int false 8) [Some 7; None; None]) /\
  from_range true Extents (Int false 8) 0 [1; 2; 3] = Ok (MkDims Extents (Int false 8) []) /\
  from_range true Extents (Int false 8) 2 [1; 2; 3] = Stopped.
Proof. repeat split. Qed.

(* total_size(i) of extents that are at least 1 is the product of those from i on,
   if the size type has it *)
Theorem C110_total_size : forall d l i, sized (ty d) -> holds d l -> (i < length l)%nat ->
  Forall (fun v => 1 <= v) (skipn i l) -> fits (ty d) (product (skipn i l)) ->
  total_size d i = Ok (product (skipn i l)).
Proof.
  intros d l i S [Hl F] Hi P Q. unfold total_size, rank. rewrite Hl, map_length.
  destruct l as [|a l0] eqn:El; [cbn in Hi; lia|]. rewrite <- El in *.
  destruct (map Some l) as [|x xs] eqn:Em; [subst l; discriminate|]. rewrite <- Em.
  rewrite Nat.min_l by lia. rewrite skipn_map.
  apply from_fits; auto.
  - intro Z. assert (L := skipn_length i l). rewrite Z in L. cbn in L. lia.
  - intros j Hj. assert (B := skipn_product_le (skipn i l) j P).
    assert (C := skipn_product_le (skipn i l) 0 P). cbn [skipn] in C.
    destruct S as (s & n & Et & Hn). rewrite Et in *. destruct s; cbn [fits] in *; [|lia].
    assert (0 < 2 ^ (n - 1)) by (apply Z.pow_pos_nonneg; cbn in Hn; lia). lia.
Qed.
(* unsigned types of 8, 32 and 64 bits and signed ones of 8 and 16: the product of
   any extents, wrapped *)
Theorem C110_total_wraps : forall d l i, sized (ty d) ->
  In (ty d) [Int false 8; Int true 8; Int true 16; Int false 32; Int false 64] -> holds d l -> (i < length l)%nat ->
  exists w, total_size d i = Ok w /\ wrapped (ty d) (product (skipn i l)) w.
Proof.
  intros d l i S T [Hl F] Hi. exists (cast (ty d) (product (skipn i l))). split; [|apply cast_wrapped; exact S].
  unfold total_size, rank. rewrite Hl, map_length. destruct (map Some l) as [|x xs] eqn:Em; [destruct l; [cbn in Hi; lia|discriminate]|].
  rewrite <- Em. rewrite Nat.min_l by lia. rewrite skipn_map. apply from_wraps.
  - split; [exact S|]. destruct T as [<- | [<- | [<- | [<- | [<- | []]]]]];
      try (left; split; [discriminate|cbn; lia]); right; eexists; (split; [|reflexivity]); cbn; tauto.
  - apply Forall_forall. intros y Y. apply (proj1 (Forall_forall _ _) F). rewrite <- (firstn_skipn i l). apply in_or_app. auto.
  - intro Z. assert (L := skipn_length i l). rewrite Z in L. cbn in L. lia.
Qed.
(* signed types of 32 and 64 bits: the product, unless one of the products from a
   later extent on does not fit; then it is undefined, whatever comes before *)
Theorem C110_total_signed : forall d l i, In (ty d) [Int true 32; Int true 64] -> holds d l -> (i < length l)%nat ->
  (total_size d i = Ok (product (skipn i l)) <-> forall j, (i <= j < length l)%nat -> fits (ty d) (product (skipn j l))) /\
  (total_size d i = Undefined <-> exists j, (i <= j < length l)%nat /\ ~ fits (ty d) (product (skipn j l))).
Proof.
  intros d l i T [Hl F] Hi.
  assert (T' : exists n, In n [32; 64] /\ ty d = Int true n) by (destruct T as [<- | [<- | []]]; eexists; (split; [|reflexivity]); cbn; tauto).
  destruct T' as (n & Hn & Et). rewrite Et in *.
  assert (S : sized (Int true n)) by (exists true, n; split; auto; cbn in *; tauto).
  assert (E : total_size d i = product_from (Int true n) (map Some (skipn i l))).
  { unfold total_size, rank. rewrite Hl, map_length, Et. destruct (map Some l) as [|x xs] eqn:Em; [destruct l; [cbn in Hi; lia|discriminate]|].
    rewrite <- Em. rewrite Nat.min_l by lia. rewrite skipn_map. reflexivity. }
  assert (N : skipn i l <> []) by (intro Z; assert (L := skipn_length i l); rewrite Z in L; cbn in L; lia).
  assert (Sk : forall j, skipn j (skipn i l) = skipn (i + j) l) by (intro j; rewrite skipn_more; f_equal; lia).
  assert (Fi : Forall (fits (Int true n)) (skipn i l)).
  { apply Forall_forall. intros y Y. apply (proj1 (Forall_forall _ _) F). rewrite <- (firstn_skipn i l). apply in_or_app. auto. }
  assert (A : (forall j, (i <= j < length l)%nat -> fits (Int true n) (product (skipn j l))) -> total_size d i = Ok (product (skipn i l))).
  { intro H. rewrite E. apply from_fits; auto. intros j Hj. rewrite Sk. apply H. rewrite skipn_length in Hj. lia. }
  assert (B : (exists j, (i <= j < length l)%nat /\ ~ fits (Int true n) (product (skipn j l))) -> total_size d i = Undefined).
  { intros (j & Hj & M). rewrite E. apply from_signed_misfit; auto. exists (j - i)%nat. rewrite skipn_length, Sk. split; [lia|].
    replace (i + (j - i))%nat with j by lia. exact M. }
  assert (Dec : forall v, fits (Int true n) v \/ ~ fits (Int true n) v) by (intro; cbn [fits]; lia).
  assert (C : (forall j, (i <= j < length l)%nat -> fits (Int true n) (product (skipn j l))) \/
              exists j, (i <= j < length l)%nat /\ ~ fits (Int true n) (product (skipn j l))).
  { assert (G : forall k, (forall j, (i <= j < length l)%nat -> (j < k)%nat -> fits (Int true n) (product (skipn j l))) \/
              exists j, (i <= j < length l)%nat /\ ~ fits (Int true n) (product (skipn j l))).
    { induction k as [|k [IH|IH]]; [left; lia| |right; exact IH].
      destruct (Dec (product (skipn k l))) as [Y|Y].
      - left. intros j Hj Hk. destruct (Nat.eq_dec j k) as [->|]; [exact Y|apply IH; lia].
      - destruct (le_lt_dec i k) as [P|P].
        + destruct (le_lt_dec (length l) k) as [Q|Q]; [left; intros j Hj Hk; apply IH; lia|right; exists k; split; [lia|exact Y]].
        + left. intros j Hj Hk. apply IH; lia. }
    destruct (G (length l)) as [H|H]; [left; intros j Hj; apply H; lia|right; exact H]. }
  split; split; auto; intro H; destruct C as [C|C]; auto; exfalso.
  - rewrite (B C) in H. discriminate.
  - rewrite (A C) in H. discriminate.
Qed.
(* unsigned, 16 bits: computed as int, a step can overflow *)
Theorem C110_total_16 : forall d l i, ty d = Int false 16 -> holds d l -> (i < length l)%nat ->
  (total_size d i = Undefined <->
     exists j a, (i <= j)%nat /\ (S j < length l)%nat /\ nth_error l j = Some a /\ 2 ^ 31 - 1 < a * (product (skipn (S j) l) mod 2 ^ 16)) /\
  (total_size d i = Undefined \/ total_size d i = Ok (product (skipn i l) mod 2 ^ 16)).
Proof.
  intros d l i Et [Hl F] Hi. rewrite Et in *.
  assert (E : total_size d i = product_from (Int false 16) (map Some (skipn i l))).
  { unfold total_size, rank. rewrite Hl, map_length, Et. destruct (map Some l) as [|x xs] eqn:Em; [destruct l; [cbn in Hi; lia|discriminate]|].
    rewrite <- Em. rewrite Nat.min_l by lia. rewrite skipn_map. reflexivity. }
  assert (N : skipn i l <> []) by (intro Z; assert (L := skipn_length i l); rewrite Z in L; cbn in L; lia).
  assert (Fi : Forall (fits (Int false 16)) (skipn i l)).
  { apply Forall_forall. intros y Y. apply (proj1 (Forall_forall _ _) F). rewrite <- (firstn_skipn i l). apply in_or_app. auto. }
  assert (Nth : forall j, nth_error (skipn i l) j = nth_error l (i + j)).
  { intro j. rewrite <- (firstn_skipn i l) at 2. rewrite nth_error_app2 by (rewrite firstn_length; lia).
    rewrite firstn_length, Nat.min_l by lia. f_equal. lia. }
  assert (Sk : forall j, skipn (S j) (skipn i l) = skipn (S (i + j)) l) by (intro j; rewrite skipn_more; f_equal; lia).
  destruct (from_16 (skipn i l) N Fi) as [[P Q]|[P Q]]; rewrite E, Q; (split; [|auto]).
  - split; [discriminate|]. intros (j & a & Hj & HL & Ha & M). rewrite steps_16_iff in P. specialize (P (j - i)%nat a).
    rewrite Nth, Sk, skipn_length in P. replace (i + (j - i))%nat with j in P by lia. specialize (P Ha ltac:(lia)). lia.
  - split; [intros _|reflexivity].
    assert (G : forall k, (k <= length (skipn i l))%nat ->
       (exists j a, (j < k)%nat /\ (S j < length (skipn i l))%nat /\ nth_error (skipn i l) j = Some a /\ 2 ^ 31 - 1 < a * (product (skipn (S j) (skipn i l)) mod 2 ^ 16)) \/
       (forall j a, (j < k)%nat -> nth_error (skipn i l) j = Some a -> (S j < length (skipn i l))%nat -> a * (product (skipn (S j) (skipn i l)) mod 2 ^ 16) <= 2 ^ 31 - 1)).
    { induction k as [|k IH]; intro Hk; [right; lia|]. destruct (IH ltac:(lia)) as [(j & a & X & Y)|X].
      - left. exists j, a. split; [lia|exact Y].
      - destruct (nth_error (skipn i l) k) as [a|] eqn:Ea.
        + destruct (Z.le_gt_cases (a * (product (skipn (S k) (skipn i l)) mod 2 ^ 16)) (2 ^ 31 - 1)) as [Y|Y].
          * right. intros j b Hj Hb HL. destruct (Nat.eq_dec j k) as [->|]; [congruence|apply X; auto; lia].
          * destruct (le_lt_dec (length (skipn i l)) (S k)) as [Z|Z].
            -- right. intros j b Hj Hb HL. apply X; auto. lia.
            -- left. exists k, a. repeat split; auto; lia.
        + right. intros j b Hj Hb HL. destruct (Nat.eq_dec j k) as [->|]; [congruence|apply X; auto; lia]. }
    destruct (G (length (skipn i l)) (le_n _)) as [(j & a & Hj & HL & Ha & M)|X].
    + exists (i + j)%nat, a. rewrite Nth in Ha. rewrite Sk in M. rewrite skipn_length in HL. repeat split; auto; lia.
    + exfalso. apply P, steps_16_iff. intros j a Ha HL. apply X; auto. lia.
Qed.
Example C110_total_ex :
  total_size (MkDims Extents (Int true 32) [Some 2; Some 3; Some 4]) 0 = Ok 24 /\
  total_size (MkDims Extents (Int true 32) [Some 2; Some 3; Some 4]) 1 = Ok 12 /\
  total_size (MkDims Extents (Int false 8) [Some 16; Some 17]) 0 = Ok 16 /\
  total_size (MkDims Extents (Int true 32) [Some 65536; Some 65536]) 0 = Undefined /\
  total_size (MkDims Extents (Int false 16) [Some 65535; Some 65535]) 0 = Undefined /\
  total_size (MkDims Extents (Int false 16) [Some 256; Some 256]) 0 = Ok 0.
Proof. repeat split. Qed.

(* from an index past the last extent on, total_size is the last extent; of zero
   dimensions it is 0 *)
Theorem C110_beyond : forall d l i, holds d l -> (length l <= i)%nat -> total_size d i = Ok (last l 0).
Proof.
  intros d l i [Hl _] Hi. unfold total_size, rank. rewrite Hl, map_length.
  destruct l as [|a l0]; [reflexivity|].
  transitivity (product_from (ty d) (skipn (Nat.min i (length (a :: l0) - 1)) (map Some (a :: l0)))); [reflexivity|].
  rewrite Nat.min_r by lia. rewrite skipn_map, skipn_last by discriminate. reflexivity.
Qed.
(* sub_dims drops the first extent; its total_size is total_size(1) of the object *)
Theorem C110_sub_dims : forall d l k, holds d l -> holds (subs k d) (skipn k l) /\
  ((k < length l)%nat -> total_size (subs k d) 0 = total_size d k).
Proof.
  assert (A : forall k d l, holds d l -> holds (subs k d) (skipn k l) /\ ty (subs k d) = ty d).
  { induction k as [|k IH]; intros d l H; [cbn; auto|]. destruct H as [Hl F].
    assert (H : holds (sub_dims d) (tl l)).
    { split; cbn [sub_dims slots ty]; [rewrite Hl; destruct l; reflexivity|]. destruct l; [constructor|inversion F; auto]. }
    destruct (IH _ _ H) as [X Y]. cbn [subs]. destruct l as [|a l]; cbn [skipn tl] in *.
    - rewrite skipn_nil in X. split; [exact X|exact Y].
    - split; [exact X|exact Y]. }
  intros d l k H. destruct (A k d l H) as [X Y]. split; [exact X|]. intro Hk. destruct X as [Xl _]. destruct H as [Hl _].
  assert (N : skipn k l <> []) by (intro Z; assert (L := skipn_length k l); rewrite Z in L; cbn in L; lia).
  unfold total_size, rank. rewrite Xl, Hl, Y, !map_length. rewrite Nat.min_0_l, Nat.min_l by lia. rewrite (skipn_map Some k l).
  destruct (skipn k l) as [|b m]; [congruence|]. destruct l as [|c l]; [cbn in Hk; lia|]. reflexivity.
Qed.
Example C110_sub_ex :
  total_size (sub_dims (MkDims Extents (Int false 64) [Some 2; Some 3; Some 4])) 0 = Ok 12 /\
  total_size (sub_dims (MkDims Extents (Int false 64) [Some 5])) 0 = Ok 0 /\
  total_size (MkDims Extents (Int false 64) [Some 5]) 1 = Ok 5.
Proof. repeat split. Qed.

(* comparing: types every number of which can be compared *)
Theorem C110_equal : forall d e l m, sized (ty d) -> sized (ty e) -> holds d l -> holds e m -> length l = length m ->
  comparable (ty d) (ty e) \/ Forall (fun v => 0 <= v) (l ++ m) ->
  exists b, equals d e = Ok b /\ differs d e = Ok (negb b) /\ (b = true <-> l = m).
Proof.
  intros d e l m Sd Se [Hl Fl] [Hm Fm] L C. unfold differs, equals. rewrite Hl, Hm.
  destruct (equal_holds (ty d) (ty e) Z.eqb l m L) as (b & -> & Hb).
  - intros x y X Y. apply (proj1 (Forall_forall _ _) Fl) in X as Fx. apply (proj1 (Forall_forall _ _) Fm) in Y as Fy.
    destruct (classic_comparable (ty d) (ty e) Sd Se) as [K|K].
    + apply same_number_comparable; auto.
    + destruct C as [C|C]; [contradiction|]. rewrite Forall_app in C. destruct C as [C1 C2].
      assert (0 <= x) by (apply (proj1 (Forall_forall _ _) C1); auto). assert (0 <= y) by (apply (proj1 (Forall_forall _ _) C2); auto).
      unfold same_number. rewrite common_other by auto. cbn [cast andb].
      rewrite !Z.mod_small; auto; apply compared_other; auto.
  - exists b. split; [reflexivity|]. split; [reflexivity|]. rewrite Hb. apply Forall2_eqb.
Qed.
(* other types: numbers are compared as unsigned *)
Theorem C110_equal_mixed : forall d e l m, sized (ty d) -> sized (ty e) -> holds d l -> holds e m -> length l = length m ->
  ~ comparable (ty d) (ty e) ->
  exists b, equals d e = Ok b /\
    (b = true <-> Forall2 (fun x y => (x - y) mod 2 ^ compared_bits (ty d) (ty e) = 0) l m).
Proof.
  intros d e l m Sd Se [Hl Fl] [Hm Fm] L C. unfold equals. rewrite Hl, Hm.
  set (w := 2 ^ compared_bits (ty d) (ty e)).
  assert (W : 0 < w) by (apply Z.pow_pos_nonneg; [lia|]; unfold compared_bits; destruct Sd as (s & n & Ed & Hn); destruct Se as (r & k & Ee & Hk); rewrite Ed, Ee;
    cbn in Hn, Hk; destruct s; destruct r; lia).
  destruct (equal_holds (ty d) (ty e) (fun x y => (x - y) mod w =? 0) l m L) as (b & -> & Hb).
  - intros x y X Y. unfold same_number. rewrite common_other by auto. cbn [cast andb]. fold w.
    destruct (Z.eqb_spec (x mod w) (y mod w)) as [E|E]; symmetry; [apply Z.eqb_eq|apply Z.eqb_neq].
    + rewrite Zminus_mod, E, Z.sub_diag. apply Z.mod_0_l. lia.
    + intro D. apply E. apply Z.mod_divide in D; [|lia]. destruct D as [q Hq]. replace x with (y + q * w) by lia. apply Z.mod_add. lia.
  - exists b. split; [reflexivity|]. rewrite Hb. split; apply Forall2_impl; intros x y; apply Z.eqb_eq.
Qed.
Example C110_equal_ex :
  equals (MkDims Extents (Int true 32) [Some 2; Some 3]) (MkDims Extents (Int false 64) [Some 2; Some 3]) = Ok true /\
  equals (MkDims Extents (Int true 64) [Some (-1)]) (MkDims Extents (Int false 32) [Some (2 ^ 32 - 1)]) = Ok false /\
  equals (MkDims Extents (Int true 32) [Some (-1)]) (MkDims Extents (Int false 32) [Some (2 ^ 32 - 1)]) = Ok true.
Proof. repeat split. Qed.

(* every program: extents are numbers of their type at all times, and so are the
   strides in a debug build; operator[] and at find the number that is there *)
Theorem C110_programs : forall debug cs objs d, 
  Forall (fun c => match c with Make _ t _ | FromRange _ t _ _ => sized t | _ => True end) cs ->
  run debug [] cs = Ok objs -> In d objs -> fam d = Extents \/ debug = true ->
  exists l, holds d l /\ length l = rank d /\
    (forall i v, nth_error l i = Some v -> fits (ty d) v /\ read d i = Ok v /\ at_ d i = Ok v) /\
    (l <> [] -> forall i, (length l <= i)%nat -> read d i = Undefined /\ at_ d i = Raise OutOfRange) /\
    (l <> [] -> front d = Ok (hd 0 l) /\ back d = Ok (last l 0)) /\
    (l = [] -> (forall i, read d i = Raise RuntimeError /\ at_ d i = Raise RuntimeError) /\
               front d = Raise RuntimeError /\ back d = Raise RuntimeError).
Proof.
  intros debug cs objs d M R I K.
  assert (X : Forall (kept debug) objs).
  { eapply run_kept; [|constructor|exact R]. eapply Forall_impl; [|exact M]. intros [| | | | | |]; cbn; auto. }
  destruct (proj1 (Forall_forall _ _) X d I) as [S F]. destruct (F K) as (l & Hl & Fl). exists l.
  split; [split; auto|]. split; [unfold rank; rewrite Hl, map_length; reflexivity|]. split; [|split; [|split]].
  - intros i v E. split; [apply (proj1 (Forall_forall _ _) Fl); apply nth_error_In with (n := i); auto|].
    assert (L : (i < length l)%nat) by (apply nth_error_Some; congruence).
    assert (Q : read d i = Ok v).
    { unfold read. rewrite Hl. destruct (map Some l) eqn:Em; [destruct l; [cbn in L; lia|discriminate]|]. rewrite <- Em.
      rewrite (map_nth_error Some i l E). reflexivity. }
    split; [exact Q|]. unfold at_, rank. rewrite Q, Hl, map_length.
    destruct (map Some l) eqn:Em; [destruct l; [cbn in L; lia|discriminate]|]. apply Nat.ltb_lt in L. rewrite L. reflexivity.
  - intros N i L. unfold at_, read, rank. rewrite Hl, map_length. destruct (map Some l) eqn:Em; [destruct l; [congruence|discriminate]|].
    rewrite <- Em. rewrite (proj2 (nth_error_None _ _)) by (rewrite map_length; lia). split; [reflexivity|].
    destruct (Nat.ltb_spec i (length l)); [lia|reflexivity].
  - intro N. unfold front, back, read, rank. rewrite Hl, map_length. destruct (map Some l) eqn:Em; [destruct l; [congruence|discriminate]|].
    rewrite <- Em. split; [destruct l; [congruence|reflexivity]|]. rewrite nth_error_map, (nth_error_last l N). reflexivity.
  - intros ->. unfold front, back, at_, read. rewrite Hl. repeat split.
Qed.
(* an assignment changes the one number and no other *)
Theorem C110_written : forall d l i v, sized (ty d) -> holds d l -> (i < length l)%nat ->
  exists e m w, write d i v = Ok e /\ fam e = fam d /\ ty e = ty d /\ holds e m /\ length m = length l /\
    wrapped (ty d) v w /\ (forall j, nth_error m j = if Nat.eqb j i then Some w else nth_error l j) /\ write_at d i v = Ok e.
Proof.
  intros d l i v S [Hl F] L. set (w := cast (ty d) v).
  exists (MkDims (fam d) (ty d) (replace (slots d) i w)), (firstn i l ++ [w] ++ skipn (Datatypes.S i) l), w.
  assert (LT := proj2 (Nat.ltb_lt i (length l)) L).
  assert (W : write d i v = Ok (MkDims (fam d) (ty d) (replace (slots d) i w))).
  { unfold write, rank. rewrite Hl, map_length, LT. destruct l; [cbn in L; lia|reflexivity]. }
  split; [exact W|split; [|split; [|split; [|split; [|split; [|split]]]]]].
  - reflexivity.
  - reflexivity.
  - split; cbn [slots ty].
    + rewrite Hl, replace_map, LT. reflexivity.
    + apply Forall_forall. intros x X. apply in_app_or in X as [X | [<- | X]].
      * apply (proj1 (Forall_forall _ _) F). rewrite <- (firstn_skipn i l). apply in_or_app. auto.
      * apply fits_cast. exact S.
      * apply (proj1 (Forall_forall _ _) F). rewrite <- (firstn_skipn (Datatypes.S i) l). apply in_or_app. auto.
  - rewrite !app_length, firstn_length, skipn_length. cbn [length]. lia.
  - apply cast_wrapped. exact S.
  - intro j. destruct (Nat.eqb_spec j i) as [->|N].
    + rewrite nth_error_app2 by (rewrite firstn_length; lia). rewrite firstn_length, Nat.min_l, Nat.sub_diag by lia. reflexivity.
    + destruct (Nat.lt_ge_cases j i) as [J|J].
      * rewrite nth_error_app1 by (rewrite firstn_length; lia). rewrite <- (firstn_skipn i l) at 2.
        rewrite nth_error_app1 by (rewrite firstn_length; lia). reflexivity.
      * rewrite nth_error_app2 by (rewrite firstn_length; lia). rewrite firstn_length, Nat.min_l by lia.
        destruct (j - i)%nat as [|k] eqn:Ek; [lia|]. cbn [app nth_error].
        rewrite <- (firstn_skipn (Datatypes.S i) l) at 2. rewrite nth_error_app2 by (rewrite firstn_length; lia).
        rewrite firstn_length, Nat.min_l by lia. f_equal. lia.
  - unfold write_at. rewrite W. unfold rank. rewrite Hl, map_length, LT. destruct l; [cbn in L; lia|reflexivity].
Qed.
(* past the end at() raises an exception, operator[] does not *)
Theorem C110_written_badly : forall d l i v, holds d l -> l <> [] -> (length l <= i)%nat ->
  write d i v = Undefined /\ write_at d i v = Raise OutOfRange.
Proof.
  intros d l i v [Hl _] N L. assert (LT := proj2 (Nat.ltb_ge i (length l)) L).
  unfold write_at, write, rank. rewrite Hl, map_length, LT. destruct l; [congruence|]. split; reflexivity.
Qed.
(* an object keeps its number of dimensions and its type *)
Theorem C110_types_stay : forall debug cs more objs objs' k d, run debug [] cs = Ok objs -> run debug [] (cs ++ more) = Ok objs' ->
  nth_error objs k = Some d -> exists e, nth_error objs' k = Some e /\ fam e = fam d /\ ty e = ty d /\ rank e = rank d.
Proof.
  intros debug cs more objs objs' k d R R' N.
  assert (R2 : run debug objs more = Ok objs').
  { revert R R'. generalize (@nil dimsobj). induction cs as [|c r IH]; intros o R R'; cbn [run app] in *.
    - injection R as ->. exact R'.
    - destruct (step debug o c); try discriminate; eauto. }
  destruct (run_types _ _ _ _ R2) as [m E].
  assert (X : nth_error (map type_of objs') k = Some (type_of d)).
  { rewrite E, nth_error_app1; [apply map_nth_error; exact N|]. rewrite map_length. apply nth_error_Some. congruence. }
  rewrite nth_error_map in X. destruct (nth_error objs' k) as [e|]; [|discriminate]. exists e. split; [reflexivity|].
  unfold type_of in X. cbn in X. injection X as -> -> ->. auto.
Qed.
Example C110_types_ex :
  run false [] ([FromRange Strides (Int true 16) 2 [1]; FromRange Strides (Int true 16) 3 [1; 2; 3]] ++ [Assign 0 1; Assign 1 1]) =
  Ok [MkDims Strides (Int true 16) [Some 1; None]; MkDims Strides (Int true 16) [Some 1; Some 2; Some 3]].
Proof. reflexivity. Qed.
Example C110_programs_ex :
  run true [] [Make Extents (Int false 8) [(Int true 32, 2); (Int true 32, 9)]; Copy 0; Write 1 0 260; WriteAt 0 5 1; SubDims 1; Assign 0 1] =
  Ok [MkDims Extents (Int false 8) [Some 4; Some 9]; MkDims Extents (Int false 8) [Some 4; Some 9]; MkDims Extents (Int false 8) [Some 9]].
Proof. reflexivity. Qed.

(* width, height, depth and layers count from the innermost dimension *)
Theorem C110_accessors : forall a (sizes : list Z),
  match place a (length sizes), asked a (length sizes) with
  | Some k, Some i => (i < length sizes)%nat /\ nth i sizes 0 = nth k (rev sizes) 0
  | None, None => True
  | _, _ => False
  end.
Proof.
  intros a sizes. destruct sizes as [|x0 [|x1 [|x2 [|x3 [|x4 r]]]]]; destruct a; vm_compute; auto; split; auto 10.
Qed.
Example C110_accessors_ex : asked Width 3 = Some 2%nat /\ asked Depth 4 = Some 1%nat /\ asked Depth 2 = None /\ asked Width 1 = None.
Proof. repeat split. Qed.

(* expected but wrong: total_size is the product whenever the size type has it *)
Theorem C110_total_is_product_refuted : exists d l, sized (ty d) /\ holds d l /\ l <> [] /\ fits (ty d) (product l) /\
  total_size d 0 = Undefined.
Proof.
  exists (MkDims Extents (Int true 32) [Some 0; Some 65536; Some 65536]), [0; 65536; 65536].
  split; [exists true, 32; split; cbn; auto|]. split; [split; [reflexivity|]; repeat constructor; cbn [fits ty]; lia|].
  split; [discriminate|]. split; [cbn; lia|reflexivity].
Qed.
(* expected but wrong: it is 1 from the end on, as for sub_dims all the way down *)
Theorem C110_beyond_refuted : exists d l, sized (ty d) /\ holds d l /\ l <> [] /\
  total_size d (length l) <> Ok 1 /\ total_size (subs (length l) d) 0 <> total_size d (length l) /\ total_size (subs (length l) d) 0 <> Ok 1.
Proof.
  exists (MkDims Extents (Int false 64) [Some 5]), [5].
  split; [exists false, 64; split; cbn; auto|]. split; [split; [reflexivity|]; repeat constructor; cbn [fits ty]; lia|].
  repeat split; discriminate.
Qed.
(* expected but wrong: == is transitive *)
Theorem C110_equal_transitive_refuted : exists d e f, sized (ty d) /\ sized (ty e) /\ sized (ty f) /\
  equals d e = Ok true /\ equals e f = Ok true /\ equals d f = Ok false.
Proof.
  exists (MkDims Extents (Int false 32) [Some (2 ^ 32 - 1)]), (MkDims Extents (Int true 32) [Some (-1)]), (MkDims Extents (Int false 64) [Some (2 ^ 64 - 1)]).
  split; [exists false, 32; split; cbn; auto|]. split; [exists true, 32; split; cbn; auto|]. split; [exists false, 64; split; cbn; auto 6|].
  repeat split.
Qed.

(* assignment is between objects of one type, and makes one object equal to the other *)
Theorem C110_assigned : forall debug objs k j d e, nth_error objs k = Some d -> nth_error objs j = Some e ->
  (fam d = fam e -> ty d = ty e -> rank d = rank e ->
     exists o, step debug objs (Assign k j) = Ok o /\ length o = length objs /\ nth_error o k = Some e /\
       forall i, i <> k -> nth_error o i = nth_error objs i) /\
  (~ (fam d = fam e /\ ty d = ty e /\ rank d = rank e) -> step debug objs (Assign k j) = Ok objs).
Proof.
  intros debug objs k j d e Hk Hj. cbn [step]. rewrite Hk, Hj.
  assert (S : same_type d e = true <-> fam d = fam e /\ ty d = ty e /\ rank d = rank e).
  { unfold same_type. rewrite !andb_true_iff, Nat.eqb_eq.
    assert (F : fam_eqb (fam d) (fam e) = true <-> fam d = fam e) by (destruct (fam d), (fam e); cbn; split; congruence).
    assert (T : ity_eqb (ty d) (ty e) = true <-> ty d = ty e).
    { destruct (ty d) as [s n|], (ty e) as [r m|]; cbn; try (split; congruence). rewrite andb_true_iff, Bool.eqb_true_iff, Z.eqb_eq.
      split; [intros [-> ->]; reflexivity|intro E; injection E; auto]. }
    tauto. }
  split.
  - intros F T R. destruct (same_type d e); [|destruct S as [_ S]; discriminate S; auto]. exists (put objs k e). split; [reflexivity|].
    assert (L : (k < length objs)%nat) by (apply nth_error_Some; congruence). unfold put.
    assert (Lf : length (firstn k objs) = k) by (rewrite firstn_length; lia).
    split; [rewrite app_length; cbn [length]; rewrite Lf, skipn_length; lia|].
    split; [rewrite nth_error_app2 by lia; rewrite Lf, Nat.sub_diag; reflexivity|].
    intros i N. destruct (Nat.lt_ge_cases i k) as [Hi|Hi].
    + rewrite nth_error_app1 by lia. rewrite <- (firstn_skipn k objs) at 2. rewrite nth_error_app1 by lia. reflexivity.
    + rewrite nth_error_app2 by lia. rewrite Lf. destruct (i - k)%nat as [|m] eqn:E; [lia|]. cbn [nth_error].
      rewrite <- (firstn_skipn (Datatypes.S k) objs) at 2. rewrite nth_error_app2 by (rewrite firstn_length; lia).
      f_equal. rewrite firstn_length. lia.
  - intro N. destruct (same_type d e); [|reflexivity]. exfalso. apply N, S. reflexivity.
Qed.
Example C110_example_assigned :
  step true [MkDims Strides (Int true 64) [Some 1; Some 2]; MkDims Strides (Int true 64) [Some 3; Some 4]] (Assign 0 1)
  = Ok [MkDims Strides (Int true 64) [Some 3; Some 4]; MkDims Strides (Int true 64) [Some 3; Some 4]].
Proof. reflexivity. Qed.

Print Assumptions C110_assigned.
Print Assumptions C110_made.
Print Assumptions C110_made_badly.
Print Assumptions C110_range.
Print Assumptions C110_range_badly.
Print Assumptions C110_total_size.
Print Assumptions C110_total_wraps.
Print Assumptions C110_total_signed.
Print Assumptions C110_total_16.
Print Assumptions C110_beyond.
Print Assumptions C110_sub_dims.
Print Assumptions C110_equal.
Print Assumptions C110_equal_mixed.
Print Assumptions C110_programs.
Print Assumptions C110_written.
Print Assumptions C110_written_badly.
Print Assumptions C110_types_stay.
Print Assumptions C110_accessors.
Print Assumptions C110_total_is_product_refuted.
Print Assumptions C110_beyond_refuted.
Print Assumptions C110_equal_transitive_refuted.
