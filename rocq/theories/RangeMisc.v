(* Zipping ranges of different lengths, filters with an unset cache, searching
   without an end, reversed and backward numeric ranges. *)
From Coq Require Import ZArith List Bool Lia.
From Verif Require Import RangeModel RangeSpec RangeProofs RangePipe.
Import ListNotations.
Local Open Scope Z_scope.

(* ---- zip of different lengths ---- *)

Definition zip2 {A B} (p : pipe A) (q : pipe B) : pipe (A * (B * unit)) := Zip p (ZCons q ZNil).

Lemma follow_repeat : forall n k d, (k + d <= n)%nat -> follow false n k (repeat true d) = Some (k + d)%nat.
Proof.
  intros n k d. revert k. induction d as [|d IH]; intros k H; cbn [repeat follow].
  - f_equal. lia.
  - rewrite (proj2 (Nat.ltb_lt k n)) by lia. rewrite IH by lia. f_equal. lia.
Qed.

Lemma zip_walk : forall A B (i : iterator A) (j : iterator B) n d s t s' t',
  walk n i (repeat true d) s = Ok s' -> walk n j (repeat true d) t = Ok t' ->
  walk n (cons_iter i (cons_iter j nil_iter)) (repeat true d) (s, (t, tt)) = Ok (s', (t', tt)).
Proof.
  intros A B i j n d. induction d as [|d IH]; intros s t s' t' H G; cbn [repeat walk] in *.
  - injection H as H. injection G as G. subst. reflexivity.
  - cbn [cons_iter nil_iter inc fst snd].
    destruct (inc i n s) as [x| |]; cbn [bind] in *; try discriminate.
    destruct (inc j n t) as [y| |]; cbn [bind] in *; try discriminate.
    apply IH; assumption.
Qed.

Lemma zip_not_stopping : forall A B (p : pipe A) (q : pipe B),
  sound p -> sound q -> length (meaning p) <> length (meaning q) ->
  exists F, forall f, (F <= f)%nat -> exists r, eval f (zip2 p q) = Ok r /\
  forall d, (d <= length (meaning p))%nat -> (d <= length (meaning q))%nat ->
  exists s, walk f (iter r) (repeat true d) (rfirst r) = Ok s /\ ne (iter r) s (rlast r) = true.
Proof.
  intros A B p q Sp Sq D.
  destruct (proj1 eval_good A p Sp) as (F & H). destruct (proj1 eval_good B q Sq) as (G & H').
  exists (F + G)%nat. intros f Lf.
  destruct (H f ltac:(lia)) as (r & R & E & T & R0 & R1 & _).
  destruct (H' f ltac:(lia)) as (r' & R' & E' & T' & R0' & R1' & _).
  destruct (w_copy _ _ _ _ (t_weak _ _ _ _ T) _ _ R0) as (b & Eb & Rb).
  destruct (w_copy _ _ _ _ (t_weak _ _ _ _ T) _ _ R1) as (e & Ee & Re).
  destruct (w_copy _ _ _ _ (t_weak _ _ _ _ T') _ _ R0') as (b' & Eb' & Rb').
  destruct (w_copy _ _ _ _ (t_weak _ _ _ _ T') _ _ R1') as (e' & Ee' & Re').
  eexists. split.
  { unfold zip2. cbn [eval evals]. rewrite E, E'. cbn [bind]. unfold zcons.
    rewrite Eb', Ee'. cbn [bind]. rewrite Eb, Ee. cbn [bind]. reflexivity. }
  cbn [iter rfirst rlast znil]. intros d L L'.
  destruct (walk_ok F (iter r) (meaning p) R T false ltac:(discriminate) (repeat true d) 0%nat d b f ltac:(lia) Rb) as (s & Es & Rs).
  { rewrite follow_repeat by lia. reflexivity. }
  destruct (walk_ok G (iter r') (meaning q) R' T' false ltac:(discriminate) (repeat true d) 0%nat d b' f ltac:(lia) Rb') as (s' & Es' & Rs').
  { rewrite follow_repeat by lia. reflexivity. }
  exists (s, (s', tt)). split; [apply zip_walk; assumption|].
  cbn [cons_iter ne fst snd]. apply orb_true_iff.
  destruct (Nat.eq_dec d (length (meaning p))) as [Q|Q].
  - right. apply orb_true_iff. left. apply (t_ne _ _ _ _ T' _ _ _ _ Rs' Re'). lia.
  - left. apply (t_ne _ _ _ _ T _ _ _ _ Rs Re Q).
Qed.

Lemma container_deref : forall A c (l : list A) k n a,
  nth_error l k = Some a -> deref (container_iter c l) n (Z.of_nat k) = Ok a.
Proof.
  intros A c l k n a H. cbn [container_iter deref].
  rewrite (proj2 (Z.leb_le 0 (Z.of_nat k))) by lia. rewrite Nat2Z.id, H. reflexivity.
Qed.

Lemma container_deref_end : forall A c (l : list A) k n, (length l <= k)%nat ->
  deref (container_iter c l) n (Z.of_nat k) = Bad.
Proof.
  intros A c l k n H. cbn [container_iter deref].
  rewrite (proj2 (Z.leb_le 0 (Z.of_nat k))) by lia. rewrite Nat2Z.id.
  rewrite (proj2 (nth_error_None l k) H). reflexivity.
Qed.

Lemma container_inc : forall A c (l : list A) k n, (k < length l)%nat ->
  inc (container_iter c l) n (Z.of_nat k) = Ok (Z.of_nat (S k)).
Proof.
  intros A c l k n H. cbn [container_iter inc]. rewrite move_to_ok by lia. f_equal. lia.
Qed.

Lemma zip_elements_bad : forall A B c d (l : list A) (m : list B) n,
  length l <> length m -> forall f k, (k <= length l)%nat -> (k <= length m)%nat ->
  (Nat.min (length l) (length m) - k < f)%nat ->
  elements f n (cons_iter (container_iter c l) (cons_iter (container_iter d m) nil_iter))
    (Z.of_nat k, (Z.of_nat k, tt)) (Z.of_nat (length l), (Z.of_nat (length m), tt)) = Bad.
Proof.
  intros A B c d l m n D. induction f as [|f IH]; intros k L M Lf; [lia|]. cbn [elements].
  assert (N : ne (cons_iter (container_iter c l) (cons_iter (container_iter d m) nil_iter))
    (Z.of_nat k, (Z.of_nat k, tt)) (Z.of_nat (length l), (Z.of_nat (length m), tt)) = true).
  { cbn [cons_iter ne container_iter nil_iter fst snd]. rewrite orb_false_r. apply orb_true_iff.
    destruct (Nat.eq_dec k (length l)) as [Q|Q]; [right|left]; rewrite (proj2 (Z.eqb_neq _ _)) by lia; reflexivity. }
  rewrite N. cbn [cons_iter deref nil_iter fst snd inc].
  destruct (nth_error l k) as [a|] eqn:Na.
  - rewrite (container_deref _ c l k n a Na). cbn [bind].
    assert (Kl : (k < length l)%nat) by (apply nth_error_Some; rewrite Na; discriminate).
    destruct (nth_error m k) as [b|] eqn:Nb.
    + rewrite (container_deref _ d m k n b Nb). cbn [bind].
      assert (Km : (k < length m)%nat) by (apply nth_error_Some; rewrite Nb; discriminate).
      rewrite (container_inc _ c l k n Kl), (container_inc _ d m k n Km). cbn [bind].
      rewrite IH by lia. reflexivity.
    + apply nth_error_None in Nb. rewrite (container_deref_end _ d m k n Nb). reflexivity.
  - apply nth_error_None in Na. rewrite (container_deref_end _ c l k n Na). reflexivity.
Qed.

(* ---- filters that cache non-trivial elements ---- *)

Lemma heap_cache_never : forall A (p : A -> bool) (q : pipe A), sound q ->
  exists F, forall f, (F <= f)%nat ->
  (do r <- eval f (Filter (Cache CHeap) p q); rlist f r) = Bad.
Proof.
  intros A p q S. destruct (proj1 eval_good A q S) as (F & H).
  exists (F + length (meaning q) + 2)%nat. intros f Lf.
  destruct (H f ltac:(lia)) as (r & R & E & T & R0 & R1 & _).
  cbn [eval]. rewrite E. cbn [bind]. unfold rfilter_caching.
  assert (Sv : forall (c : option A) a, save_cache CHeap c a = Ok (Some a)) by (intros [] ?; reflexivity).
  assert (M : forall k n e s c,
    match skip_forward p (iter r) k n e s with
    | Ok s' => exists c', cskip_forward CHeap p (iter r) k n e s c = Ok (s', c')
    | Bad => cskip_forward CHeap p (iter r) k n e s c = Bad
    | NoFuel => cskip_forward CHeap p (iter r) k n e s c = NoFuel
    end).
  { induction k as [|k IH]; intros n e s c; cbn [skip_forward cskip_forward]; [reflexivity|].
    destruct (ne (iter r) s e); [|exists c; reflexivity].
    destruct (deref (iter r) n s) as [a| |]; cbn [bind]; [|reflexivity|reflexivity].
    rewrite Sv. cbn [bind]. destruct (p a); [eexists; reflexivity|].
    destruct (inc (iter r) n s); cbn [bind]; [apply IH|reflexivity|reflexivity]. }
  assert (Bg : exists b, caching_make CHeap p (iter r) f (rfirst r) (rlast r) = Ok b).
  { destruct (filter_make_begin p F (iter r) (meaning q) R T f (rfirst r) (rlast r) Lf R0 R1) as (b & Eb & _).
    unfold filter_make in Eb. unfold caching_make.
    destruct (copy (iter r) (rfirst r)) as [x| |]; cbn [bind] in *; try discriminate.
    destruct (copy (iter r) (rlast r)) as [y| |]; cbn [bind] in *; try discriminate.
    pose proof (M f f y x None) as Z.
    destruct (skip_forward p (iter r) f f y x); cbn [bind] in *; try discriminate.
    destruct Z as (c' & Z). rewrite Z. eexists. reflexivity. }
  assert (En : exists e, caching_make CHeap p (iter r) f (rlast r) (rlast r) = Ok e /\ cache e = None).
  { destruct (w_copy _ _ _ _ (t_weak _ _ _ _ T) _ _ R1) as (y & Ey & Ry).
    unfold caching_make. rewrite Ey. cbn [bind]. destruct f as [|f]; [lia|].
    cbn [cskip_forward]. rewrite (w_ne _ _ _ _ (t_weak _ _ _ _ T) _ _ _ Ry Ry).
    eexists. split; reflexivity. }
  destruct Bg as (b & Eb). destruct En as (e & Ee & Ce). rewrite Eb, Ee. cbn [bind].
  assert (Mc : forall c : option A, move_cache CHeap c = Ok c) by (intros []; reflexivity).
  rewrite !Mc. cbn [bind]. unfold rlist. cbn [iter rfirst rlast caching_iter copy].
  destruct (do c <- copy_cache CHeap (cache (MkCs (cpos b) (cstop b) (cache b)));
            do x <- copy (iter r) (cpos (MkCs (cpos b) (cstop b) (cache b)));
            do y <- copy (iter r) (cstop (MkCs (cpos b) (cstop b) (cache b)));
            Ok (MkCs x y c)) as [s| |] eqn:Q; cbn [bind].
  - cbn [cache]. rewrite Ce. reflexivity.
  - reflexivity.
  - exfalso. cbn [cpos cstop cache] in Q. unfold caching_make in Eb.
    destruct (w_copy _ _ _ _ (t_weak _ _ _ _ T) _ _ R0) as (x & Ex & Rx).
    destruct (w_copy _ _ _ _ (t_weak _ _ _ _ T) _ _ R1) as (y & Ey & Ry).
    rewrite Ex, Ey in Eb. cbn [bind] in Eb.
    destruct (skip_forward_lands p F (iter r) (meaning q) R T (length (meaning q)) f f 0%nat x y) as (z & idx & Ez & Rz & _);
      try assumption; try lia.
    pose proof (M f f y x None) as Z. rewrite Ez in Z. destruct Z as (c' & Z).
    rewrite Z in Eb. cbn [bind fst snd] in Eb. injection Eb as Eb. subst b. cbn [cpos cstop cache] in Q.
    destruct (w_copy _ _ _ _ (t_weak _ _ _ _ T) _ _ Rz) as (z' & Ez' & _).
    destruct (w_copy _ _ _ _ (t_weak _ _ _ _ T) _ _ Ry) as (y' & Ey' & _).
    destruct c' as [a|]; cbn [copy_cache bind] in Q; [|discriminate].
    rewrite Ez', Ey' in Q. discriminate.
Qed.

Lemma stack_cache_never : forall A (p : A -> bool) (q : pipe A), sound q ->
  exists F, forall f, (F <= f)%nat -> eval f (Filter (Cache CStack) p q) = Bad.
Proof.
  intros A p q S. destruct (proj1 eval_good A q S) as (F & H).
  exists (F + length (meaning q) + 2)%nat. intros f Lf.
  destruct (H f ltac:(lia)) as (r & R & E & T & R0 & R1 & _).
  cbn [eval]. rewrite E. cbn [bind]. unfold rfilter_caching.
  destruct (w_copy _ _ _ _ (t_weak _ _ _ _ T) _ _ R0) as (x & Ex & Rx).
  destruct (w_copy _ _ _ _ (t_weak _ _ _ _ T) _ _ R1) as (y & Ey & Ry).
  unfold caching_make. rewrite Ex, Ey. cbn [bind]. destruct f as [|f]; [lia|]. cbn [cskip_forward].
  destruct (Nat.eq_dec 0 (length (meaning q))) as [Z|Z].
  - rewrite (w_ne _ _ _ _ (t_weak _ _ _ _ T) (length (meaning q)) x y) by (try assumption; rewrite <- Z; exact Rx).
    cbn [bind fst snd].
    rewrite (w_ne _ _ _ _ (t_weak _ _ _ _ T) (length (meaning q)) y y) by assumption.
    reflexivity.
  - rewrite (t_ne _ _ _ _ T _ _ _ _ Rx Ry Z).
    destruct (meaning q) as [|a l] eqn:M; [cbn in Z; lia|].
    rewrite (w_deref _ _ _ _ (t_weak _ _ _ _ T) 0%nat x a (Datatypes.S f) Rx eq_refl ltac:(lia)).
    reflexivity.
Qed.

(* ---- filter without an end ---- *)

Lemma seek_container : forall A (p : A -> bool) c (l : list A) n m k f,
  (length l - k = m)%nat -> (k <= length l)%nat -> (m < f)%nat ->
  seek p (container_iter c l) f n (Z.of_nat k) =
  match find (fun j => match nth_error l j with Some a => p a | None => false end) (seq k m) with
  | Some j => Ok (Z.of_nat j)
  | None => Bad
  end.
Proof.
  intros A p c l n. induction m as [|m IH]; intros k f D L Lf; destruct f as [|f]; try lia; cbn [seek seq find].
  - rewrite container_deref_end by lia. reflexivity.
  - destruct (nth_error l k) as [a|] eqn:Na; [|apply nth_error_None in Na; lia].
    rewrite (container_deref _ c l k n a Na). cbn [bind]. destruct (p a); [reflexivity|].
    rewrite container_inc by lia. cbn [bind]. apply IH; lia.
Qed.

(* ---- reversed numeric ranges ---- *)

Lemma numeric_reverse_bad : forall t a b f, ilo t <= a -> a < b -> b <= ihi t -> (0 < f)%nat ->
  (do r <- eval f (Reverse (Numeric t a b)); rlist f r) = Bad.
Proof.
  intros t a b f H1 H2 H3 Lf. destruct f as [|f]; [lia|].
  cbn [eval bind rreverse numeric_range iter rfirst rlast numeric_iter copy rlist reverse_iter elements ne].
  rewrite (proj2 (Z.eqb_neq b a)) by lia. cbn [negb].
  assert (D : deref (reverse_iter (numeric_iter t)) (S f) b = Bad).
  { cbn [reverse_iter deref numeric_iter copy dec bind stash]. rewrite int_result_ok by lia. reflexivity. }
  rewrite D. reflexivity.
Qed.
