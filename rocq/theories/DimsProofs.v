From Coq Require Import List Bool Arith ZArith Lia.
From Verif Require Import ConvertModel ConvertSpec NarrowProofs IterModel IterSpec IterProofs DimsModel DimsSpec.
Import ListNotations.
Open Scope Z_scope.

Lemma sized_plain t : sized t -> plain t. Proof. intro H. exact H. Qed.
Lemma sized_pos t : sized t -> exists s n, t = Int s n /\ 1 <= n.
Proof. intro H. exact (plain_pos t H). Qed.
Lemma fits_range t v : sized t -> (fits t v <-> tmin t <= v <= tmax t).
Proof.
  intros (s & n & -> & _). unfold fits, tmin, tmax, signed, is_signed, width. destruct s; lia.
Qed.
Lemma cast_fits t v : sized t -> fits t v -> cast t v = v.
Proof. intros H F. apply cast_in; [apply sized_pos; auto|]. apply fits_range; auto. Qed.
Lemma fits_cast t v : sized t -> fits t (cast t v).
Proof. intros H. apply fits_range; auto. destruct (sized_pos t H) as (s & n & -> & Hn). apply cast_range; auto. Qed.
Lemma cast_wrapped t v : sized t -> wrapped t v (cast t v).
Proof.
  intro H. split; [apply fits_cast; auto|]. destruct (sized_pos t H) as (s & n & -> & Hn).
  destruct (cast_congr s n v Hn) as [k ->]. cbn [bits]. replace (v + k * 2 ^ n - v) with (k * 2 ^ n) by lia.
  apply Z.mod_mul. assert (0 < 2 ^ n) by (apply Z.pow_pos_nonneg; lia). lia.
Qed.
Lemma wrapped_unique t v w : sized t -> wrapped t v w -> w = cast t v.
Proof.
  intros H [F M]. destruct (sized_pos t H) as (s & n & E & Hn). subst t. cbn [bits] in M.
  assert (P : 0 < 2 ^ n) by (apply Z.pow_pos_nonneg; lia).
  apply Z.mod_divide in M; [|lia]. destruct M as [k Hk].
  rewrite <- (cast_fits (Int s n) w H F). replace w with (v + k * 2 ^ n) by lia. apply cast_shift; auto.
Qed.

(* ---- making ---- *)
Lemma narrow_fits debug t from v : sized t -> sized from -> fits from v -> fits t v -> narrow debug t from v = Val v.
Proof.
  intros Ht Hf A B. apply narrow_in; try (apply sized_pos; assumption); apply fits_range; assumption.
Qed.
Lemma sized_proper t : sized t -> proper t.
Proof. intros (s & n & -> & H). cbn in *. lia. Qed.
Lemma narrow_misfit t from v : sized t -> sized from -> fits from v -> ~ fits t v -> narrow true t from v = Stop.
Proof.
  intros Ht Hf A B. unfold narrow. destruct (narrow_cast true t from v) as [r|] eqn:E; [|reflexivity].
  apply narrow_debug in E; auto using sized_proper. tauto.
Qed.
Definition good_arg (a : arg) : Prop := sized (fst a) /\ fits (fst a) (snd a).
Lemma narrow_all_fits debug t args : sized t -> Forall good_arg args -> Forall (fun a => fits t (snd a)) args ->
  narrow_all debug t args = Ok (map (fun a => Some (snd a)) args).
Proof.
  intros Ht. induction args as [|[from v] r IH]; intros G F; [reflexivity|].
  inversion G as [|? ? [G1 G2] G3]; subst. inversion F; subst. cbn [fst snd] in *.
  cbn [narrow_all map]. rewrite narrow_fits by auto. cbn [lift andThen]. rewrite IH by auto. reflexivity.
Qed.
Lemma narrow_all_misfit t args : sized t -> Forall good_arg args -> Exists (fun a => ~ fits t (snd a)) args ->
  narrow_all true t args = Stopped.
Proof.
  intros Ht. induction args as [|[from v] r IH]; intros G E; [inversion E|].
  inversion G as [|? ? [G1 G2] G3]; subst. cbn [fst snd] in *. cbn [narrow_all].
  inversion E; subst; cbn [snd] in *.
  - rewrite narrow_misfit by auto. reflexivity.
  - unfold narrow. destruct (narrow_cast true t from v) as [x|]; [|reflexivity].
    cbn [lift andThen]. rewrite IH by auto. reflexivity.
Qed.
Lemma narrow_all_release t args :
  narrow_all false t args = Ok (map (fun a => Some (cast t (snd a))) args).
Proof.
  induction args as [|[from v] r IH]; [reflexivity|]. cbn [narrow_all map snd].
  rewrite narrow_release. cbn [lift andThen]. rewrite IH. reflexivity.
Qed.

(* ---- total_size ---- *)
Lemma product_cons a l : product (a :: l) = a * product l. Proof. reflexivity. Qed.
Lemma arith_out t v : ~ (tmin t <= v <= tmax t) -> arith t v = if signed t then Undef else Val (cast t v).
Proof.
  intro H. unfold arith. destruct ((tmin t <=? v) && (v <=? tmax t)) eqn:E; [|reflexivity].
  apply andb_prop in E as [A B]. apply Z.leb_le in A, B. tauto.
Qed.
Lemma times_fits t a b : sized t -> fits t (a * b) -> times t a b = Ok (a * b).
Proof.
  intros H F. unfold times. rewrite arith_in by (apply promoted_in; auto; apply fits_range; auto).
  cbn [bind lift]. rewrite cast_fits by auto. reflexivity.
Qed.
Lemma times_small t a b : sized t -> fits t a -> fits t b -> t <> Int false 16 -> bits t < 32 ->
  times t a b = Ok (cast t (a * b)).
Proof.
  intros H A B N L. unfold times. rewrite arith_in; [reflexivity|].
  assert (K : Z.abs a <= 2 ^ 15 /\ Z.abs b <= 2 ^ 15 /\ promoted t = int32).
  { destruct H as (s & n & -> & Hn). cbn [bits] in L.
    destruct Hn as [<- | [<- | [<- | [<- | []]]]]; try lia; destruct s; try congruence; cbn [fits] in A, B;
      (split; [|split; [|reflexivity]]); lia. }
  destruct K as (Ka & Kb & ->). change (tmin int32) with (- 2 ^ 31). change (tmax int32) with (2 ^ 31 - 1).
  assert (M : Z.abs (a * b) <= 2 ^ 15 * 2 ^ 15) by (rewrite Z.abs_mul; apply Z.mul_le_mono_nonneg; lia). lia.
Qed.
Lemma times_unsigned n a b : In n [32; 64] -> times (Int false n) a b = Ok (cast (Int false n) (a * b)).
Proof.
  intros H. unfold times. assert (E : promoted (Int false n) = Int false n).
  { destruct H as [<- | [<- | []]]; reflexivity. }
  rewrite E. unfold arith. destruct (_ && _) eqn:D; [reflexivity|]. cbn [signed is_signed bind lift].
  f_equal. assert (S : sized (Int false n)) by (exists false, n; split; auto; cbn in *; tauto).
  apply cast_fits; auto using fits_cast.
Qed.
Lemma times_signed n a b : In n [32; 64] -> ~ fits (Int true n) (a * b) -> times (Int true n) a b = Undefined.
Proof.
  intros H F. unfold times. assert (E : promoted (Int true n) = Int true n).
  { destruct H as [<- | [<- | []]]; reflexivity. }
  assert (S : sized (Int true n)) by (exists true, n; split; auto; cbn in *; tauto).
  rewrite E, arith_out; [reflexivity|]. intro R. apply F. apply fits_range; auto.
Qed.
Lemma times_16 a b : fits (Int false 16) a -> fits (Int false 16) b ->
  times (Int false 16) a b = if a * b <=? 2 ^ 31 - 1 then Ok (cast (Int false 16) (a * b)) else Undefined.
Proof.
  intros A B. unfold times. change (promoted (Int false 16)) with int32. cbn [fits] in A, B.
  destruct (Z.leb_spec (a * b) (2 ^ 31 - 1)).
  - rewrite arith_in; [reflexivity|]. change (tmin int32) with (- 2 ^ 31). change (tmax int32) with (2 ^ 31 - 1). nia.
  - rewrite arith_out; [reflexivity|]. change (tmax int32) with (2 ^ 31 - 1). lia.
Qed.
Lemma cast_mul t a b : sized t -> cast t (a * cast t b) = cast t (a * b).
Proof.
  intro H. destruct (sized_pos t H) as (s & n & -> & Hn). destruct (cast_congr s n b Hn) as [k ->].
  replace (a * (b + k * 2 ^ n)) with (a * b + (a * k) * 2 ^ n) by lia. apply cast_shift; auto.
Qed.
Lemma product_from_cons t v w r : product_from t (Some v :: w :: r) = andThen (product_from t (w :: r)) (fun p => times t v p).
Proof. reflexivity. Qed.
Lemma from_one t v : product_from t [Some v] = Ok v. Proof. reflexivity. Qed.
(* types whose products wrap and are never undefined *)
Definition wraps (t : ity) : Prop := sized t /\ ((t <> Int false 16 /\ bits t < 32) \/ exists n, In n [32; 64] /\ t = Int false n).
Lemma times_wraps t a b : wraps t -> fits t a -> fits t b -> times t a b = Ok (cast t (a * b)).
Proof.
  intros [H [[N L] | (n & Hn & ->)]] A B; [apply times_small; auto | apply times_unsigned; auto].
Qed.
Lemma from_wraps t l : wraps t -> Forall (fits t) l -> l <> [] -> product_from t (map Some l) = Ok (cast t (product l)).
Proof.
  intros W. assert (S := proj1 W). induction l as [|a l IH]; intros F N; [congruence|]. inversion F; subst.
  destruct l as [|b l].
  - cbn [map]. rewrite from_one, product_cons. f_equal. change (product []) with 1. rewrite Z.mul_1_r, cast_fits; auto.
  - cbn [map]. rewrite product_from_cons. cbn [map] in IH. rewrite IH by (auto; discriminate). cbn [andThen].
    rewrite times_wraps by (auto using fits_cast). rewrite cast_mul by auto. reflexivity.
Qed.
Lemma from_fits t l : sized t -> l <> [] -> (forall j, (j < length l)%nat -> fits t (product (skipn j l))) ->
  product_from t (map Some l) = Ok (product l).
Proof.
  intros S. induction l as [|a l IH]; intros N F; [congruence|].
  destruct l as [|b l].
  - cbn [map]. rewrite from_one, product_cons. change (product []) with 1. f_equal. lia.
  - cbn [map]. rewrite product_from_cons. cbn [map] in IH. rewrite IH.
    + cbn [andThen]. rewrite times_fits; [reflexivity|auto|]. exact (F 0%nat ltac:(cbn; lia)).
    + discriminate.
    + intros j Hj. exact (F (Datatypes.S j) ltac:(cbn in *; lia)).
Qed.
Lemma from_signed_misfit n l : In n [32; 64] -> (exists j, (j < length l)%nat /\ ~ fits (Int true n) (product (skipn j l))) ->
  Forall (fits (Int true n)) l -> product_from (Int true n) (map Some l) = Undefined.
Proof.
  intros Hn. assert (S : sized (Int true n)) by (exists true, n; split; auto; cbn in *; tauto).
  induction l as [|a l IH]; intros (j & Hj & M) F; [cbn in Hj; lia|]. inversion F; subst.
  destruct l as [|b l].
  - exfalso. apply M. cbn in Hj. replace j with 0%nat by lia. cbn [skipn]. rewrite product_cons.
    change (product []) with 1. rewrite Z.mul_1_r. auto.
  - cbn [map]. rewrite product_from_cons. cbn [map] in IH. destruct j as [|j].
    + (* either a later one is wrong or this one *)
      assert (D : (exists j, (j < length (b :: l))%nat /\ ~ fits (Int true n) (product (skipn j (b :: l))))
                  \/ forall j, (j < length (b :: l))%nat -> fits (Int true n) (product (skipn j (b :: l)))).
      { clear -S. generalize (b :: l) as m. intro m.
        assert (Dec : forall v, fits (Int true n) v \/ ~ fits (Int true n) v) by (intro; cbn [fits]; lia).
        induction m as [|x m IH]; [right; intros j Hj; cbn in Hj; lia|].
        destruct IH as [(j & Hj & M)|A].
        - left. exists (Datatypes.S j). split; [cbn; lia|exact M].
        - destruct (Dec (product (x :: m))) as [Y|Y].
          + right. intros [|j] Hj; [exact Y|]. apply A. cbn in Hj. lia.
          + left. exists 0%nat. split; [cbn; lia|exact Y]. }
      destruct D as [D|D].
      * rewrite (IH D) by auto. reflexivity.
      * assert (E := from_fits (Int true n) (b :: l) S ltac:(discriminate) D). cbn [map] in E. rewrite E. cbn [andThen].
        apply times_signed; auto.
    + rewrite IH; auto. exists j. split; [cbn in *; lia|exact M].
Qed.
Lemma skipn_product_le l j : Forall (fun v => 1 <= v) l -> 1 <= product (skipn j l) <= product l.
Proof.
  revert j. induction l as [|a l IH]; intros j F.
  - destruct j; cbn; lia.
  - inversion F; subst. assert (P := IH 0%nat H2). cbn [skipn] in P. rewrite product_cons. destruct j.
    + cbn [skipn]. rewrite product_cons. nia.
    + cbn [skipn]. specialize (IH j H2). nia.
Qed.
(* 16 bits, unsigned *)
Fixpoint steps_16 (l : list Z) : Prop :=
  match l with
  | a :: r => (r <> [] -> a * (product r mod 2 ^ 16) <= 2 ^ 31 - 1) /\ steps_16 r
  | [] => True
  end.
Lemma cast_16 v : cast (Int false 16) v = v mod 2 ^ 16. Proof. reflexivity. Qed.
Lemma from_16 l : l <> [] -> Forall (fits (Int false 16)) l ->
  (steps_16 l /\ product_from (Int false 16) (map Some l) = Ok (product l mod 2 ^ 16)) \/
  (~ steps_16 l /\ product_from (Int false 16) (map Some l) = Undefined).
Proof.
  assert (S : sized (Int false 16)) by (exists false, 16; split; auto; cbn; tauto).
  induction l as [|a l IH]; intros N F; [congruence|]. inversion F; subst.
  destruct l as [|b l].
  - left. split; [cbn; tauto|]. cbn [map]. rewrite from_one, product_cons. change (product []) with 1. f_equal.
    rewrite Z.mul_1_r, Z.mod_small; auto.
  - cbn [map]. rewrite product_from_cons. cbn [map] in IH. destruct (IH ltac:(discriminate) H2) as [[Q E]|[Q E]]; rewrite E; cbn [andThen].
    + rewrite times_16; auto; [|cbn [fits]; apply Z.mod_pos_bound; lia].
      destruct (Z.leb_spec (a * (product (b :: l) mod 2 ^ 16)) (2 ^ 31 - 1)).
      * left. split; [split; auto|]. rewrite <- cast_16, cast_mul by auto. reflexivity.
      * right. split; [|reflexivity]. intros [A _]. specialize (A ltac:(discriminate)). lia.
    + right. split; [|reflexivity]. intros [_ A]. contradiction.
Qed.
Lemma steps_16_iff l : steps_16 l <-> forall j a, nth_error l j = Some a -> (S j < length l)%nat ->
  a * (product (skipn (S j) l) mod 2 ^ 16) <= 2 ^ 31 - 1.
Proof.
  induction l as [|a l IH]; cbn [steps_16].
  - split; [intros _ j b E; destruct j; discriminate|auto].
  - split.
    + intros [A B] [|j] b E L.
      * cbn in E. injection E as <-. cbn [skipn]. apply A. intros ->. cbn in L. lia.
      * cbn [nth_error] in E. change (skipn (S (S j)) (a :: l)) with (skipn (S j) l).
        apply (proj1 IH B); auto. cbn in L. lia.
    + intro A. split.
      * intro N. apply (A 0%nat a eq_refl). destruct l; [congruence|cbn; lia].
      * apply IH. intros j b E L. apply (A (S j) b E). cbn. lia.
Qed.

(* ---- comparing ---- *)
Lemma common_fits t u v : sized t -> sized u -> comparable t u -> fits t v \/ fits u v -> sized (common t u) /\ fits (common t u) v.
Proof.
  intros (s & n & -> & Hn) (r & m & -> & Hm) C F.
  destruct Hn as [<- | [<- | [<- | [<- | []]]]]; destruct Hm as [<- | [<- | [<- | [<- | []]]]]; destruct s; destruct r;
    cbn [comparable] in C;
    try (exfalso; destruct C as [C | [[C1 C2] | [[C1 C2] | [C1 C2]]]]; try discriminate; vm_compute in C1, C2; discriminate);
    try (exfalso; destruct C as [C | [[C1 C2] | [[C1 C2] | [C1 C2]]]]; try discriminate; lia);
    match goal with |- context[common ?a ?b] => let x := eval vm_compute in (common a b) in change (common a b) with x end;
    (split; [eexists; eexists; split; [reflexivity|cbn; tauto] | cbn [fits] in *; lia]).
Qed.
Lemma same_number_comparable t u a b : sized t -> sized u -> comparable t u -> fits t a -> fits u b ->
  same_number t u a b = (a =? b).
Proof.
  intros Ht Hu C A B. unfold same_number.
  destruct (common_fits t u a Ht Hu C (or_introl A)) as [S Fa]. destruct (common_fits t u b Ht Hu C (or_intror B)) as [_ Fb].
  rewrite !cast_fits; auto.
Qed.
Lemma common_other t u : sized t -> sized u -> ~ comparable t u -> common t u = Int false (compared_bits t u).
Proof.
  intros (s & n & -> & Hn) (r & m & -> & Hm) C.
  destruct Hn as [<- | [<- | [<- | [<- | []]]]]; destruct Hm as [<- | [<- | [<- | [<- | []]]]]; destruct s; destruct r;
    cbn [comparable] in C; try (exfalso; apply C; left; reflexivity);
    try (exfalso; apply C; right; left; lia);
    try (exfalso; apply C; right; right; left; split; [reflexivity|lia]);
    try (exfalso; apply C; right; right; right; split; [reflexivity|lia]);
    reflexivity.
Qed.
Lemma compared_other t u v : sized t -> sized u -> ~ comparable t u -> 0 <= v -> fits t v \/ fits u v -> 0 <= v < 2 ^ compared_bits t u.
Proof.
  intros (s & n & -> & Hn) (r & m & -> & Hm) C P F.
  destruct Hn as [<- | [<- | [<- | [<- | []]]]]; destruct Hm as [<- | [<- | [<- | [<- | []]]]]; destruct s; destruct r;
    cbn [comparable] in C; try (exfalso; apply C; left; reflexivity);
    try (exfalso; apply C; right; left; lia);
    try (exfalso; apply C; right; right; left; split; [reflexivity|lia]);
    try (exfalso; apply C; right; right; right; split; [reflexivity|lia]);
    cbn [fits] in F; match goal with |- context[compared_bits ?a ?b] => let x := eval vm_compute in (compared_bits a b) in change (compared_bits a b) with x end; lia.
Qed.
Lemma equal_holds t u (R : Z -> Z -> bool) l m : length l = length m ->
  (forall a b, In a l -> In b m -> same_number t u a b = R a b) ->
  exists c, equal_from t u (map Some l) (map Some m) = Ok c /\ (c = true <-> Forall2 (fun a b => R a b = true) l m).
Proof.
  revert m. induction l as [|a l IH]; intros [|b m] L H; try discriminate.
  - exists true. split; [reflexivity|]. split; [constructor|reflexivity].
  - cbn [map equal_from]. rewrite (H a b) by (left; reflexivity). destruct (R a b) eqn:E.
    + destruct (IH m) as (c & -> & Hc); [cbn in L; lia| |].
      * intros x y X Y. apply H; right; assumption.
      * exists c. split; [reflexivity|]. rewrite Hc. split; [intro; constructor; auto|intro X; inversion X; auto].
    + exists false. split; [reflexivity|]. split; [discriminate|]. intro X. inversion X; subst. congruence.
Qed.
Lemma Forall2_eqb l m : Forall2 (fun a b => (a =? b) = true) l m <-> l = m.
Proof.
  split.
  - induction 1 as [|a b l m E _ IH]; [reflexivity|]. apply Z.eqb_eq in E. subst. reflexivity.
  - intros <-. induction l; constructor; auto. apply Z.eqb_refl.
Qed.

(* ---- programs ---- *)
Definition full (d : dimsobj) : Prop := exists l, holds d l.
Definition made_ok (c : call) : Prop :=
  match c with
  | Make _ t _ => sized t
  | FromRange _ t _ _ => sized t
  | _ => True
  end.
(* what holds for every object: the family decides *)
Definition kept (debug : bool) (d : dimsobj) : Prop := sized (ty d) /\ (fam d = Extents \/ debug = true -> full d).
Lemma narrow_all_ok debug t args xs : sized t -> narrow_all debug t args = Ok xs ->
  exists l, xs = map Some l /\ Forall (fits t) l /\ length l = length args.
Proof.
  intro Ht. revert xs. induction args as [|[from v] r IH]; intros xs E; cbn [narrow_all] in E.
  - injection E as <-. exists []. repeat split. constructor.
  - destruct (narrow debug t from v) as [x| |] eqn:N; try discriminate. cbn [lift andThen] in E.
    destruct (narrow_all debug t r) as [ys| | |]; try discriminate. cbn [andThen] in E. injection E as <-.
    destruct (IH ys eq_refl) as (l & -> & F & L). exists (x :: l). split; [reflexivity|]. split; [|cbn; lia].
    constructor; auto. unfold narrow, narrow_cast in N.
    destruct debug; [destruct (_ && _)|]; try discriminate; injection N as <-; auto using fits_cast.
Qed.
Lemma replace_map l i v : replace (map Some l) i v = map Some (firstn i l ++ (if Nat.ltb i (length l) then [v] else []) ++ skipn (S i) l).
Proof.
  revert i. induction l as [|a l IH]; intros [|i]; cbn [map replace]; try reflexivity.
  rewrite IH. cbn [firstn skipn length app map]. do 2 f_equal.
Qed.
Lemma replace_length l i v : length (replace l i v) = length l.
Proof. revert i. induction l as [|a l IH]; intros [|i]; cbn; auto. Qed.
Lemma write_full d i v : sized (ty d) -> full d -> forall d', write d i v = Ok d' -> full d'.
Proof.
  intros Hs (l & Hl & F) d' E. unfold write in E. destruct (slots d) as [|s0 sl] eqn:Es; [discriminate|].
  destruct (Nat.ltb i (rank d)); [|discriminate]. injection E as <-.
  exists (firstn i l ++ (if Nat.ltb i (length l) then [cast (ty d) v] else []) ++ skipn (S i) l). split; cbn [slots ty].
  - rewrite <- replace_map, <- Hl. reflexivity.
  - apply Forall_app. split.
    + apply Forall_forall. intros x X. apply (proj1 (Forall_forall _ _) F). rewrite <- (firstn_skipn i l). apply in_or_app. auto.
    + apply Forall_app. split.
      * destruct (Nat.ltb i (length l)); constructor; auto using fits_cast.
      * apply Forall_forall. intros x X. apply (proj1 (Forall_forall _ _) F).
        rewrite <- (firstn_skipn (S i) l). apply in_or_app. auto.
Qed.
Lemma write_type d i v d' : write d i v = Ok d' -> fam d' = fam d /\ ty d' = ty d /\ rank d' = rank d.
Proof.
  unfold write. destruct (slots d) eqn:Es; [discriminate|]. destruct (Nat.ltb i (rank d)); [|discriminate].
  intro E. injection E as <-. split; [reflexivity|split; [reflexivity|]].
  transitivity (length (replace (slots d) i (cast (ty d) v))); [rewrite Es; reflexivity|apply replace_length].
Qed.
Lemma put_in (A : Type) (objs : list A) k d x : In x (firstn k objs ++ d :: skipn (S k) objs) -> x = d \/ In x objs.
Proof.
  intro H. apply in_app_or in H as [H | [H | H]]; auto.
  - right. rewrite <- (firstn_skipn k objs). apply in_or_app. auto.
  - right. rewrite <- (firstn_skipn (S k) objs). apply in_or_app. auto.
Qed.
Lemma kept_put debug objs k d : Forall (kept debug) objs -> kept debug d -> Forall (kept debug) (put objs k d).
Proof.
  intros H K. apply Forall_forall. intros x X. apply put_in in X as [->|X]; auto. apply (proj1 (Forall_forall _ _) H x X).
Qed.
Lemma kept_snoc debug objs d : Forall (kept debug) objs -> kept debug d -> Forall (kept debug) (objs ++ [d]).
Proof. intros. apply Forall_app. split; auto. Qed.
Lemma kept_nth debug objs k d : Forall (kept debug) objs -> nth_error objs k = Some d -> kept debug d.
Proof. intros H E. apply (proj1 (Forall_forall _ _) H). apply nth_error_In with (n := k); auto. Qed.
Lemma kept_write debug d i v d' : kept debug d -> write d i v = Ok d' -> kept debug d'.
Proof.
  intros [S K] E. destruct (write_type d i v d' E) as (F & T & _). split; [congruence|].
  intro H. eapply write_full; [exact S| |exact E]. apply K. rewrite <- F. exact H.
Qed.
Lemma kept_range debug f t n vs d : sized t -> from_range debug f t n vs = Ok d -> kept debug d.
Proof.
  intros S E. unfold from_range in E. destruct n as [|n].
  { injection E as <-. split; [exact S|]. intros _. exists []. split; [reflexivity|constructor]. }
  destruct (debug && negb (Nat.eqb (length vs) (Datatypes.S n))) eqn:D; [discriminate|].
  destruct (Nat.ltb_spec (Datatypes.S n) (length vs)); [discriminate|]. injection E as <-. split; [exact S|].
  cbn [fam ty slots]. intro H0.
  assert (Q : repeat (blank f) (Datatypes.S n - length vs) = map Some (repeat 0 (Datatypes.S n - length vs))).
  { destruct H0 as [-> | ->].
    - cbn [blank]. generalize (Datatypes.S n - length vs)%nat as k. induction k as [|k IHk]; [reflexivity|]. cbn [repeat map]. rewrite IHk. reflexivity.
    - cbn [andb] in D. apply negb_false_iff, Nat.eqb_eq in D. rewrite D, Nat.sub_diag. reflexivity. }
  exists (map (cast t) vs ++ repeat 0 (Datatypes.S n - length vs)). split; cbn [slots ty].
  - transitivity (map (fun v => Some (cast t v)) vs ++ repeat (blank f) (Datatypes.S n - length vs)); [reflexivity|].
    rewrite Q, map_app, map_map. reflexivity.
  - apply Forall_app. split.
    + apply Forall_forall. intros x X. apply in_map_iff in X as (y & <- & _). auto using fits_cast.
    + apply Forall_forall. intros x X. apply repeat_spec in X. subst x. destruct S as (s & b & -> & Hb).
      destruct Hb as [<- | [<- | [<- | [<- | []]]]]; destruct s; cbn [fits]; lia.
Qed.
Lemma step_kept debug objs c o : made_ok c -> Forall (kept debug) objs -> step debug objs c = Ok o -> Forall (kept debug) o.
Proof.
  intros M H E. destruct c as [f t args|f t n vs|k|k j|k i v|k i v|k]; cbn [step made_ok] in *.
  - unfold make in E. assert (G : forall r, andThen (andThen (narrow_all debug t args) (fun xs => Ok (MkDims f t xs))) (fun d => Ok (objs ++ [d])) = r -> r = Ok o -> Forall (kept debug) o).
    { intros r <- X. destruct (narrow_all debug t args) as [xs| | |] eqn:N; try discriminate. cbn [andThen] in X. injection X as <-.
      apply kept_snoc; auto. split; [exact M|]. intros _. destruct (narrow_all_ok debug t args xs M N) as (l & -> & F & _).
      exists l. split; auto. }
    destruct f; [|destruct args; [injection E as <-; exact H|]]; eapply G; eauto.
  - destruct (from_range debug f t n vs) as [d| | |] eqn:R; try discriminate. cbn [andThen] in E. injection E as <-.
    apply kept_snoc; auto. eapply kept_range; eauto.
  - destruct (nth_error objs k) as [d|] eqn:N; injection E as <-; auto. apply kept_snoc; auto. eapply kept_nth; eauto.
  - destruct (nth_error objs k) as [d|] eqn:N; [|injection E as <-; auto].
    destruct (nth_error objs j) as [e|] eqn:N'; [|injection E as <-; auto].
    destruct (same_type d e); injection E as <-; auto. apply kept_put; auto. eapply kept_nth; eauto.
  - destruct (nth_error objs k) as [d|] eqn:N; [|injection E as <-; auto].
    destruct (write d i v) as [d'| | |] eqn:W; try discriminate. cbn [andThen] in E. injection E as <-.
    apply kept_put; auto. eapply kept_write; [|exact W]. eapply kept_nth; eauto.
  - destruct (nth_error objs k) as [d|] eqn:N; [|injection E as <-; auto].
    destruct (fam d); [|injection E as <-; auto].
    destruct (write_at d i v) as [d'| | |] eqn:W; try discriminate. cbn [andThen] in E. injection E as <-.
    apply kept_put; auto. unfold write_at in W. destruct (slots d); [discriminate|].
    destruct (Nat.ltb i (rank d)); [|discriminate]. eapply kept_write; [|exact W]. eapply kept_nth; eauto.
  - destruct (nth_error objs k) as [d|] eqn:N; [|injection E as <-; auto].
    destruct (fam d) eqn:Fd; injection E as <-; auto. apply kept_snoc; auto.
    destruct (kept_nth debug objs k d H N) as [S K]. split; [exact S|]. cbn [sub_dims fam]. intro X.
    destruct (K X) as (l & Hl & Fl). exists (tl l). split; cbn [sub_dims slots ty].
    + rewrite Hl. destruct l; reflexivity.
    + destruct l; [constructor|]. inversion Fl; auto.
Qed.
Lemma run_kept debug cs : forall objs o, Forall made_ok cs -> Forall (kept debug) objs -> run debug objs cs = Ok o -> Forall (kept debug) o.
Proof.
  induction cs as [|c r IH]; intros objs o M H E; cbn [run] in E; [injection E as <-; auto|].
  inversion M; subst. destruct (step debug objs c) as [o'| | |] eqn:S; try discriminate.
  - eapply IH; [| |exact E]; auto. eapply step_kept; eauto.
  - eapply IH; eauto.
Qed.
Lemma classic_comparable t u : sized t -> sized u -> comparable t u \/ ~ comparable t u.
Proof.
  intros (s & n & -> & _) (r & m & -> & _). cbn [comparable]. destruct s; destruct r; try (left; left; reflexivity).
  - destruct (Z.lt_ge_cases (Z.max m 31) n); [left; right; right; left; auto|].
    destruct (Z.lt_ge_cases n 32); destruct (Z.lt_ge_cases m 32); try (left; right; left; lia);
      right; intros [C | [C | [C | C]]]; try discriminate; destruct C; try discriminate; lia.
  - destruct (Z.lt_ge_cases (Z.max n 31) m); [left; right; right; right; auto|].
    destruct (Z.lt_ge_cases n 32); destruct (Z.lt_ge_cases m 32); try (left; right; left; lia);
      right; intros [C | [C | [C | C]]]; try discriminate; destruct C; try discriminate; lia.
Qed.
Lemma Forall2_impl (A B : Type) (P Q : A -> B -> Prop) l m : (forall x y, P x y -> Q x y) -> Forall2 P l m -> Forall2 Q l m.
Proof. intro H. induction 1; constructor; auto. Qed.
Lemma skipn_more (A : Type) (l : list A) i j : skipn j (skipn i l) = skipn (i + j) l.
Proof.
  revert l. induction i as [|i IH]; intro l; [reflexivity|]. destruct l; [rewrite !skipn_nil; reflexivity|]. cbn [skipn Nat.add]. apply IH.
Qed.
Lemma skipn_last (l : list Z) : l <> [] -> skipn (length l - 1) l = [last l 0].
Proof.
  induction l as [|a l IH]; [congruence|]. intros _. destruct l as [|b l]; [reflexivity|].
  replace (length (a :: b :: l) - 1)%nat with (S (length (b :: l) - 1)) by (cbn; lia). cbn [skipn].
  rewrite IH by discriminate. reflexivity.
Qed.

(* ---- the type of an object does not change ---- *)
Definition type_of (d : dimsobj) : family * ity * nat := (fam d, ty d, rank d).
Lemma same_type_of d e : same_type d e = true -> type_of e = type_of d.
Proof.
  unfold same_type, type_of. intro H. apply andb_prop in H as [H R]. apply andb_prop in H as [F T].
  apply Nat.eqb_eq in R. rewrite R.
  assert (fam d = fam e) by (destruct (fam d), (fam e); auto; discriminate).
  assert (ty d = ty e).
  { destruct (ty d) as [s n|], (ty e) as [r m|]; try discriminate; auto. cbn in T. apply andb_prop in T as [A B].
    apply Bool.eqb_prop in A. apply Z.eqb_eq in B. congruence. }
  congruence.
Qed.
Lemma put_map objs k d e : nth_error objs k = Some d -> type_of e = type_of d -> map type_of (put objs k e) = map type_of objs.
Proof.
  unfold put. revert k. induction objs as [|x objs IH]; intros [|k] N T; try discriminate.
  - cbn in N. injection N as ->. cbn [firstn app skipn map]. rewrite T. reflexivity.
  - cbn [nth_error] in N. cbn [firstn app map]. change (skipn (S (S k)) (x :: objs)) with (skipn (S k) objs). rewrite IH; auto.
Qed.
Lemma step_types debug objs c o : step debug objs c = Ok o -> exists more, map type_of o = map type_of objs ++ more.
Proof.
  assert (Z : exists more, map type_of objs = map type_of objs ++ more) by (exists []; rewrite app_nil_r; reflexivity).
  assert (A : forall d, exists more, map type_of (objs ++ [d]) = map type_of objs ++ more) by (intro d; exists [type_of d]; rewrite map_app; reflexivity).
  assert (P : forall k d e, nth_error objs k = Some d -> type_of e = type_of d -> exists more, map type_of (put objs k e) = map type_of objs ++ more).
  { intros k d e N T. exists []. rewrite app_nil_r. eapply put_map; eauto. }
  assert (W : forall d i v e, write d i v = Ok e -> type_of e = type_of d).
  { intros d i v e E. unfold type_of. destruct (write_type d i v e E) as (-> & -> & ->). reflexivity. }
  intro E. destruct c as [f t args|f t n vs|k|k j|k i v|k i v|k]; cbn [step] in E.
  - destruct (make debug f t args) as [r|]; [|injection E as <-; auto]. destruct r; try discriminate. injection E as <-. auto.
  - destruct (from_range debug f t n vs); try discriminate. injection E as <-. auto.
  - destruct (nth_error objs k); injection E as <-; auto.
  - destruct (nth_error objs k) as [d|] eqn:N; [|injection E as <-; auto]. destruct (nth_error objs j) as [e|]; [|injection E as <-; auto].
    destruct (same_type d e) eqn:S; injection E as <-; auto. eapply P; eauto using same_type_of.
  - destruct (nth_error objs k) as [d|] eqn:N; [|injection E as <-; auto].
    destruct (write d i v) as [e| | |] eqn:X; try discriminate. injection E as <-. eapply P; eauto.
  - destruct (nth_error objs k) as [d|] eqn:N; [|injection E as <-; auto]. destruct (fam d); [|injection E as <-; auto].
    destruct (write_at d i v) as [e| | |] eqn:X; try discriminate. injection E as <-. unfold write_at in X.
    destruct (slots d); [discriminate|]. destruct (Nat.ltb i (rank d)); [|discriminate]. eapply P; eauto.
  - destruct (nth_error objs k) as [d|]; [|injection E as <-; auto]. destruct (fam d); injection E as <-; auto.
Qed.
Lemma run_types debug cs : forall objs o, run debug objs cs = Ok o -> exists more, map type_of o = map type_of objs ++ more.
Proof.
  induction cs as [|c r IH]; intros objs o E; cbn [run] in E.
  - injection E as <-. exists []. rewrite app_nil_r. reflexivity.
  - destruct (step debug objs c) as [o'| | |] eqn:S; try discriminate; eauto.
    destruct (step_types _ _ _ _ S) as [m1 E1]. destruct (IH _ _ E) as [m2 E2]. exists (m1 ++ m2). rewrite E2, E1, app_assoc. reflexivity.
Qed.
Lemma nth_error_last (l : list Z) : l <> [] -> nth_error l (length l - 1) = Some (last l 0).
Proof.
  intro N. rewrite <- (firstn_skipn (length l - 1) l) at 1. rewrite nth_error_app2 by (rewrite firstn_length; lia).
  rewrite skipn_last by exact N. rewrite firstn_length, Nat.min_l, Nat.sub_diag by lia. reflexivity.
Qed.
