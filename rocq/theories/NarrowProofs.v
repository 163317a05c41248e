From Coq Require Import List Bool ZArith Lia.
From Verif Require Import ConvertModel ConvertSpec.
Open Scope Z_scope.

Lemma half : forall n, 1 < n -> 2 ^ n = 2 * 2 ^ (n - 1) /\ 2 <= 2 ^ (n - 1).
Proof.
  intros n H. split; [rewrite <- Z.pow_succ_r by lia; f_equal; lia|].
  change 2 with (2 ^ 1) at 1. apply Z.pow_le_mono_r; lia.
Qed.
Lemma cast_range : forall t v, proper t -> in_range t (cast t v).
Proof.
  intros [s n|] v P; simpl in *; [|destruct (v =? 0); lia].
  destruct (half n P) as [E G]. pose proof (Z.mod_pos_bound v (2 ^ n) ltac:(lia)).
  destruct s; simpl; [|lia]. destruct (Z.leb_spec (2 ^ (n - 1)) (v mod 2 ^ n)); lia.
Qed.
Lemma cast_id : forall t v, proper t -> in_range t v -> cast t v = v.
Proof.
  intros [s n|] v P R; simpl in *; [|destruct (Z.eqb_spec v 0); lia].
  destruct (half n P) as [E G]. destruct s; simpl.
  - destruct (Z.leb_spec 0 v).
    + rewrite Z.mod_small by lia. destruct (Z.leb_spec (2 ^ (n - 1)) v); lia.
    + replace (v mod 2 ^ n) with (v + 2 ^ n).
      * destruct (Z.leb_spec (2 ^ (n - 1)) (v + 2 ^ n)); lia.
      * symmetry. rewrite <- (Z.mod_small (v + 2 ^ n) (2 ^ n)) by lia. rewrite <- Z.add_mod_idemp_r, Z.mod_same, Z.add_0_r by lia. auto.
  - rewrite Z.mod_small by lia. auto.
Qed.
(* two types, seen from their ranges: of types alike in sign, one contains the
   other *)
Lemma pow_cmp : forall a b, 0 <= a -> 0 <= b -> 2 ^ a <= 2 ^ b \/ 2 ^ b <= 2 ^ a.
Proof. intros a b A B. destruct (Z.le_gt_cases a b); [left|right]; apply Z.pow_le_mono_r; lia. Qed.
Lemma narrow_same : forall to from v, proper to -> proper from -> in_range from v ->
  v = cast from (cast to v) -> (is_signed to = is_signed from \/ (cast to v <? 0) = (v <? 0)) -> cast to v = v.
Proof.
  intros to from v Pt Pf R E S. pose proof (cast_range to v Pt) as T.
  assert (X : in_range from (cast to v) \/ in_range to v).
  { destruct to as [st nt|], from as [sf nf|]; simpl in Pt, Pf.
    - destruct (half nt Pt) as [Et Gt], (half nf Pf) as [Ef Gf].
      set (t := cast (Int st nt) v) in *. clearbody t.
      destruct st, sf; simpl in *.
      + destruct (pow_cmp (nt - 1) (nf - 1)); lia.
      + destruct S as [S|S]; [discriminate|]. destruct (pow_cmp (nt - 1) nf); lia.
      + destruct S as [S|S]; [discriminate|]. destruct (pow_cmp nt (nf - 1)); lia.
      + destruct (pow_cmp nt nf); lia.
    - right. simpl in *. destruct (half nt Pt). destruct st; lia.
    - left. simpl in *. destruct (half nf Pf). destruct sf; lia.
    - right. simpl in *. lia. }
  destruct X as [X|X].
  - rewrite (cast_id from _ Pf X) in E. auto.
  - apply cast_id; auto.
Qed.
Lemma narrow_debug : forall to from v r, proper to -> proper from -> in_range from v ->
  (narrow_cast true to from v = Some r <-> (in_range to v /\ r = v)).
Proof.
  intros to from v r Pt Pf R. unfold narrow_cast. cbn [orb].
  split.
  - destruct (Z.eqb_spec v (cast from (cast to v))) as [E|E]; [|discriminate].
    destruct (Bool.eqb (is_signed to) (is_signed from)) eqn:B; cbn [andb].
    + intros H. injection H as <-. apply eqb_prop in B.
      pose proof (narrow_same to from v Pt Pf R E (or_introl B)) as C. split; auto. rewrite <- C. apply cast_range; auto.
    + destruct (Bool.eqb (cast to v <? 0) (v <? 0)) eqn:S; [|discriminate].
      intros H. injection H as <-. apply eqb_prop in S.
      pose proof (narrow_same to from v Pt Pf R E (or_intror S)) as C. split; auto. rewrite <- C. apply cast_range; auto.
  - intros [T ->]. rewrite (cast_id to v Pt T), (cast_id from v Pf R), Z.eqb_refl, eqb_reflx.
    destruct (Bool.eqb (is_signed to) (is_signed from)); auto.
Qed.

Lemma cast_cast : forall s n m v, 1 < n -> n <= m -> in_range (Int s n) v ->
  forall s', cast (Int s n) (cast (Int s' m) v) = v.
Proof.
  intros s n m v N M R s'. rewrite <- (cast_id (Int s n) v) at 2 by auto.
  assert (D : exists k, 2 ^ m = k * 2 ^ n).
  { exists (2 ^ (m - n)). rewrite <- Z.pow_add_r by lia. f_equal. lia. }
  destruct D as [k D]. destruct (half n N).
  assert (E : forall w, (exists q, w = v + q * 2 ^ n) -> w mod 2 ^ n = v mod 2 ^ n).
  { intros w [q ->]. rewrite Z.mod_add; lia. }
  assert (Q : exists q, cast (Int s' m) v = v + q * 2 ^ n).
  { destruct (half m ltac:(lia)). simpl. pose proof (Z.div_mod v (2 ^ m) ltac:(lia)) as DM.
    destruct (s' && (2 ^ (m - 1) <=? v mod 2 ^ m)).
    - exists (- (v / 2 ^ m) * k - k). rewrite D in *. lia.
    - exists (- (v / 2 ^ m) * k). rewrite D in *. lia. }
  unfold cast at 1. rewrite (E _ Q). reflexivity.
Qed.
