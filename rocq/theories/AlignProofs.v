From Coq Require Import ZArith List Bool Lia.
From Verif Require Import AlignModel AlignSpec.
Import ListNotations.
Local Open Scope Z_scope.

(* ---- memory ---- *)

Lemma store_out : forall n a v m x, (x < a \/ a + Z.of_nat n <= x) -> store n a v m x = m x.
Proof.
  induction n as [|n IH]; intros a v m x H; cbn [store]; [reflexivity|].
  rewrite IH by lia. rewrite (proj2 (Z.eqb_neq x a)) by lia. reflexivity.
Qed.

Lemma load_ext : forall n a m m',
  (forall x, a <= x < a + Z.of_nat n -> m x = m' x) -> load n a m = load n a m'.
Proof.
  induction n as [|n IH]; intros a m m' H; cbn [load]; [reflexivity|].
  rewrite (H a) by lia. rewrite (IH (a + 1) m m'); [reflexivity|]. intros x L. apply H. lia.
Qed.

Lemma load_store : forall n a v m, 0 <= v < 256 ^ Z.of_nat n -> load n a (store n a v m) = v.
Proof.
  induction n as [|n IH]; intros a v m H; cbn [load store].
  - cbn in H. lia.
  - rewrite IH.
    + rewrite store_out by lia. rewrite Z.eqb_refl.
      rewrite Z.add_comm. symmetry. apply Z.div_mod. lia.
    + rewrite Nat2Z.inj_succ, Z.pow_succ_r in H by lia.
      split; [apply Z.div_pos; lia|]. apply Z.div_lt_upper_bound; lia.
Qed.

Lemma store_bytes : forall n a v m, (forall x, 0 <= m x < 256) -> forall x, 0 <= store n a v m x < 256.
Proof.
  induction n as [|n IH]; intros a v m H x; cbn [store]; [apply H|].
  apply IH. intro y. destruct (y =? a); [|apply H]. apply Z.mod_pos_bound. lia.
Qed.

(* ---- arithmetic ---- *)

Lemma wrap_small : forall z, 0 <= z < 2 ^ 64 -> wrap z = z.
Proof. intros z H. apply Z.mod_small. exact H. Qed.

Lemma ceil_bounds : forall p a, 0 < a -> ceil_address p a <= p < ceil_address p a + a.
Proof.
  intros p a H. unfold ceil_address. pose proof (Z.div_mod p a ltac:(lia)).
  pose proof (Z.mod_pos_bound p a H). rewrite Z.mul_comm. lia.
Qed.

Lemma ceil_multiple : forall p a, 0 < a -> ceil_address p a mod a = 0.
Proof. intros p a H. unfold ceil_address. apply Z_mod_mult. Qed.

(* alignments for which nothing overflows *)
Definition sane (A : Z) : Prop := 1 <= A /\ A < 2 ^ 62.

Lemma extra_length_eq : forall A s, sane A -> 1 <= s <= 8 -> extra_length A s = A - 1 + s + s - 1.
Proof. intros A s [H1 H2] Hs. unfold extra_length. apply wrap_small. lia. Qed.

Lemma offset_size_cases : forall A,
  offset_size A = 1 \/ offset_size A = 2 \/ offset_size A = 4 \/ offset_size A = 8.
Proof.
  intro A. unfold offset_size. destruct (extra_length A 1 <=? 2 ^ 8 - 1); [auto|].
  destruct (extra_length A 2 <=? 2 ^ 16 - 1); [auto|]. destruct (extra_length A 4 <=? 2 ^ 32 - 1); auto.
Qed.

Lemma extra_fits : forall A, sane A -> extra_bytes A <= 2 ^ (8 * offset_size A) - 1.
Proof.
  intros A H. unfold extra_bytes, offset_size.
  destruct (extra_length A 1 <=? 2 ^ 8 - 1) eqn:E1; [apply Z.leb_le in E1; exact E1|].
  destruct (extra_length A 2 <=? 2 ^ 16 - 1) eqn:E2; [apply Z.leb_le in E2; exact E2|].
  destruct (extra_length A 4 <=? 2 ^ 32 - 1) eqn:E4; [apply Z.leb_le in E4; exact E4|].
  rewrite extra_length_eq by (assumption || lia). destruct H as [H1 H2].
  change (2 ^ (8 * 8)) with (4 * 2 ^ 62). lia.
Qed.

Lemma offset_smallest : forall A s, In s [1; 2; 4; 8] -> s < offset_size A -> 2 ^ (8 * s) - 1 < extra_length A s.
Proof.
  intros A s I L. unfold offset_size in L.
  destruct I as [I|[I|[I|[I|[]]]]]; subst s;
    destruct (extra_length A 1 <=? 2 ^ 8 - 1) eqn:E1; try lia; try (apply Z.leb_gt; assumption);
    destruct (extra_length A 2 <=? 2 ^ 16 - 1) eqn:E2; try lia; try (apply Z.leb_gt; assumption);
    destruct (extra_length A 4 <=? 2 ^ 32 - 1) eqn:E4; try lia; try (apply Z.leb_gt; assumption).
Qed.

Record placed (A size n b p : Z) : Prop := {
  pl_aligned : p mod A = 0;
  pl_optr : b <= offset_ptr A p;
  pl_optr_end : offset_ptr A p + offset_size A <= p;
  pl_optr_aligned : offset_ptr A p mod offset_size A = 0;
  pl_end : p + n * size <= b + request A size n;
  pl_offset : 0 <= p - b <= extra_bytes A
}.

Lemma placement : forall A size n b,
  sane A -> 1 <= size -> 1 <= n -> natural A = false ->
  n * size + A + 16 + n * A < 2 ^ 63 -> 0 < b -> b + request A size n < 2 ^ 64 ->
  placed A size n b (ceil_address (wrap (b + extra_bytes A)) A).
Proof.
  intros A size n b S Hs Hn Nat Hb Hb0 Hlen. pose proof S as [SA1 SA2].
  assert (Q : 1 <= offset_size A <= 8) by (pose proof (offset_size_cases A); lia).
  assert (E : extra_bytes A = A - 1 + offset_size A + offset_size A - 1) by (apply extra_length_eq; assumption).
  assert (P1 : 1 <= n * size) by nia. assert (P2 : 1 <= n * A) by nia.
  assert (RQ : request A size n = n * size + extra_bytes A).
  { unfold request. rewrite Nat. apply wrap_small. lia. }
  rewrite (wrap_small (b + extra_bytes A)) by lia.
  pose proof (ceil_bounds (b + extra_bytes A) A ltac:(lia)) as C.
  pose proof (ceil_multiple (b + extra_bytes A) A ltac:(lia)) as M.
  set (p := ceil_address (b + extra_bytes A) A) in *. clearbody p.
  assert (O : offset_ptr A p = ceil_address (p - offset_size A) (offset_size A)).
  { unfold offset_ptr. rewrite wrap_small by lia. reflexivity. }
  pose proof (ceil_bounds (p - offset_size A) (offset_size A) ltac:(lia)) as D.
  pose proof (ceil_multiple (p - offset_size A) (offset_size A) ltac:(lia)) as M2.
  constructor; rewrite ?O, ?RQ; try lia; assumption.
Qed.

Lemma round_up_bounds : forall size A, 1 <= A -> 1 <= size -> size <= round_up size A /\ round_up size A < size + A.
Proof.
  intros size A HA Hs. unfold round_up.
  pose proof (Z.div_mod (size + A - 1) A ltac:(lia)). pose proof (Z.mod_pos_bound (size + A - 1) A ltac:(lia)).
  rewrite Z.mul_comm. lia.
Qed.

Lemma natural_divides : forall A b, 1 <= A -> natural A = true -> b mod 16 = 0 -> b mod A = 0.
Proof.
  intros A b HA N H. unfold natural in N. apply andb_true_iff in N. destruct N as [P L]. apply Z.leb_le in L.
  assert (D : (A | 16)).
  { unfold power_of_two in P. apply Z.eqb_eq in P.
    assert (Q : A = 1 \/ A = 2 \/ A = 3 \/ A = 4 \/ A = 5 \/ A = 6 \/ A = 7 \/ A = 8 \/ A = 9 \/ A = 10 \/
                A = 11 \/ A = 12 \/ A = 13 \/ A = 14 \/ A = 15 \/ A = 16) by lia.
    decompose [or] Q; subst A; try discriminate P;
      [exists 16|exists 8|exists 4|exists 2|exists 1]; reflexivity. }
  apply Z.mod_divide; [lia|]. apply Z.divide_trans with 16; [exact D|]. apply Z.mod_divide; [lia|exact H].
Qed.

(* ---- the invariant ---- *)

Section Inv.
Variables (A size : Z).
Hypothesis SA : sane A.
Hypothesis SZ : 1 <= size.

Record link (m : memory) (x : array) (bl : Z * Z) : Prop := {
  l_base : base x = fst bl;
  l_len : snd bl = request A size (count x);
  l_count : 1 <= count x;
  l_bound : count x * size + A + 16 + count x * A < 2 ^ 63;
  l_pos : 0 < fst bl;
  l_fits : fst bl + snd bl < 2 ^ 64;
  l_16 : fst bl mod 16 = 0;
  l_ptr : ptr x = if natural A then fst bl else ceil_address (wrap (fst bl + extra_bytes A)) A;
  l_record : natural A = false ->
    load (Z.to_nat (offset_size A)) (offset_ptr A (ptr x)) m = ptr x - fst bl
}.

Inductive pairwise : list (Z * Z) -> Prop :=
| PwNil : pairwise []
| PwCons : forall b len l, pairwise l -> (forall b' len', In (b', len') l -> apart b len b' len') ->
    pairwise ((b, len) :: l).

Record inv (h : heap) (arrays : list array) : Prop := {
  i_link : Forall2 (link (mem h)) arrays (blocks h);
  i_apart : pairwise (blocks h);
  i_bytes : forall a, 0 <= mem h a < 256
}.

(* where things are inside the block *)
Record layout (x : array) (b len : Z) : Prop := {
  y_aligned : ptr x mod A = 0;
  y_lo : b <= ptr x;
  y_hi : ptr x + count x * size <= b + len;
  y_some : 1 <= count x * size;
  y_rec_lo : natural A = false -> b <= offset_ptr A (ptr x);
  y_rec_hi : natural A = false -> offset_ptr A (ptr x) + offset_size A <= ptr x
}.

Lemma link_layout : forall m x b len, link m x (b, len) -> layout x b len.
Proof using SA SZ.
  intros m x b len [H1 H2 H3 H4 H5 H6 H7 H8 H9]. cbn [fst snd] in *.
  destruct SA as [A1 A2]. assert (P1 : 1 <= count x * size) by nia. assert (P2 : 1 <= count x * A) by nia.
  destruct (natural A) eqn:N.
  - assert (RQ : len = count x * round_up size A) by (rewrite H2; unfold request; rewrite N; reflexivity).
    pose proof (round_up_bounds size A A1 SZ).
    constructor; rewrite ?H8; try lia; try congruence; try nia. apply natural_divides; assumption.
  - rewrite H2 in H6. destruct (placement A size (count x) b SA SZ H3 N H4 H5 H6) as [Q1 Q2 Q3 Q4 Q5 Q6].
    constructor; rewrite ?H8, ?H2; try assumption; try lia; intros _; try assumption.
Qed.

Lemma len_pos : forall m x b len, link m x (b, len) -> 0 < len.
Proof using SA SZ. intros m x b len L. destruct (link_layout _ _ _ _ L). lia. Qed.

Lemma apart_sym : forall a la b lb, apart a la b lb -> apart b lb a la.
Proof. unfold apart. intros. lia. Qed.

(* the memory may change outside the block's bookkeeping *)
Lemma link_mem : forall m m' x b len, link m x (b, len) ->
  (forall a, b <= a < b + len -> ~ inside size x a -> m' a = m a) -> link m' x (b, len).
Proof using SA SZ.
  intros m m' x b len L H. pose proof (link_layout _ _ _ _ L) as Y.
  destruct L as [H1 H2 H3 H4 H5 H6 H7 H8 H9]. constructor; try assumption. intro N. rewrite <- (H9 N).
  apply load_ext. intros a La. destruct Y as [Y1 Y2 Y3 Y4 Y5 Y6]. specialize (Y5 N). specialize (Y6 N).
  assert (Q : 1 <= offset_size A <= 8) by (pose proof (offset_size_cases A); lia).
  rewrite Z2Nat.id in La by lia. apply H; [lia|]. unfold inside. lia.
Qed.

Lemma pairwise_nth : forall l, pairwise l -> forall i j bi li bj lj,
  nth_error l i = Some (bi, li) -> nth_error l j = Some (bj, lj) -> i <> j -> apart bi li bj lj.
Proof.
  intros l P. induction P as [|b len l P IH H]; intros i j bi li bj lj Hi Hj D.
  - destruct i; discriminate.
  - destruct i as [|i], j as [|j]; cbn [nth_error] in *; try lia.
    + injection Hi as E1 E2. subst. apply H. apply (nth_error_In _ _ Hj).
    + injection Hj as E1 E2. subst. apply apart_sym, H. apply (nth_error_In _ _ Hi).
    + apply (IH i j); try assumption. lia.
Qed.

Lemma Forall2_nth : forall B C (P : B -> C -> Prop) l l', Forall2 P l l' ->
  forall i x, nth_error l i = Some x -> exists y, nth_error l' i = Some y /\ P x y.
Proof.
  intros B C P l l' F. induction F as [|x y l l' H F IH]; intros i z Hz.
  - destruct i; discriminate.
  - destruct i as [|i]; cbn [nth_error] in *.
    + injection Hz as Hz. subst. exists y. split; [reflexivity|exact H].
    + apply IH. exact Hz.
Qed.

Lemma inv_placed : forall h arrays, inv h arrays -> well_placed A size h arrays.
Proof using SA SZ.
  intros h arrays [F P _]. constructor.
  - intros x I. apply In_nth_error in I. destruct I as (i & I).
    destruct (Forall2_nth _ _ _ _ _ F i x I) as ((b & len) & _ & L). apply (y_aligned _ _ _ (link_layout _ _ _ _ L)).
  - intros x I. apply In_nth_error in I. destruct I as (i & I).
    destruct (Forall2_nth _ _ _ _ _ F i x I) as ((b & len) & N & L). exists len.
    pose proof (link_layout _ _ _ _ L) as Y. pose proof (l_base _ _ _ L) as E. cbn [fst] in E. rewrite E.
    split; [apply (nth_error_In _ _ N)|]. split; [apply Y|apply Y].
  - intros i j x y Hi Hj D.
    destruct (Forall2_nth _ _ _ _ _ F i x Hi) as ((bx & lx) & Nx & Lx).
    destruct (Forall2_nth _ _ _ _ _ F j y Hj) as ((by_ & ly) & Ny & Ly).
    pose proof (pairwise_nth _ P i j _ _ _ _ Nx Ny D) as Ap.
    destruct (link_layout _ _ _ _ Lx), (link_layout _ _ _ _ Ly). unfold apart in *. lia.
  - clear P. unfold blocks_of. induction F as [|x y l l' H F IH]; [reflexivity|]. cbn [map]. rewrite IH.
    rewrite (l_base _ _ _ H). reflexivity.
Qed.

(* ---- steps ---- *)

Lemma links_mem : forall m m' arrays bs,
  Forall2 (link m) arrays bs ->
  (forall x b len, In x arrays -> In (b, len) bs -> link m x (b, len) ->
     forall a, b <= a < b + len -> ~ inside size x a -> m' a = m a) ->
  Forall2 (link m') arrays bs.
Proof using SA SZ.
  intros m m' arrays bs F. induction F as [|x [b len] l l' H F IH]; intro G; constructor.
  - apply (link_mem m); [exact H|]. apply G; [left; reflexivity|left; reflexivity|exact H].
  - apply IH. intros. apply (G x0 b0 len0); try assumption; right; assumption.
Qed.

Lemma pow_bytes : forall A, 2 ^ (8 * offset_size A) = 256 ^ Z.of_nat (Z.to_nat (offset_size A)).
Proof.
  intro B. pose proof (offset_size_cases B) as [Q|[Q|[Q|Q]]]; rewrite Q; reflexivity.
Qed.

Lemma allocate_ok : forall h arrays n b,
  inv h arrays -> 1 <= n -> n * size + A + 16 + n * A < 2 ^ 63 -> new_gives (blocks h) b (request A size n) ->
  exists p h', allocate A size n b h = Some (p, h') /\ inv h' (MkArray p n b :: arrays) /\
    blocks h' = (b, request A size n) :: blocks h /\
    forall x a, In x arrays -> inside size x a -> mem h' a = mem h a.
Proof using SA SZ.
  intros h arrays n b [F P B] Hn Hb (N1 & N2 & N3 & N4). unfold allocate.
  destruct (natural A) eqn:Nat.
  - exists b, (MkHeap (mem h) ((b, request A size n) :: blocks h)). split; [reflexivity|].
    split; [|split; [reflexivity|reflexivity]].
    constructor; cbn [mem blocks]; [|constructor; assumption|exact B].
    constructor; [|exact F]. constructor; cbn [fst snd base count ptr]; try assumption; try reflexivity.
    + rewrite Nat. reflexivity.
    + rewrite Nat. discriminate.
  - destruct (placement A size n b SA SZ Hn Nat Hb N1 N2) as [Q1 Q2 Q3 Q4 Q5 Q6].
    set (p := ceil_address (wrap (b + extra_bytes A)) A) in *.
    assert (Ep : p = ceil_address (wrap (b + extra_bytes A)) A) by reflexivity. clearbody p.
    assert (S : 1 <= offset_size A <= 8) by (pose proof (offset_size_cases A); lia).
    assert (NS : 1 <= n * size) by nia.
    rewrite (proj2 (Z.leb_le _ _) Q2).
    rewrite (proj2 (Z.leb_le (offset_ptr A p + offset_size A) (b + request A size n))) by lia.
    cbn [andb].
    assert (V : wrap (p - b) mod 2 ^ (8 * offset_size A) = p - b).
    { pose proof (extra_fits A SA) as X.
      rewrite wrap_small by lia. apply Z.mod_small. lia. }
    rewrite V.
    set (m' := store (Z.to_nat (offset_size A)) (offset_ptr A p) (p - b) (mem h)).
    assert (Out : forall a, (a < b \/ b + request A size n <= a) -> m' a = mem h a).
    { intros a Ha. unfold m'. apply store_out. rewrite Z2Nat.id by lia. lia. }
    exists p, (MkHeap m' ((b, request A size n) :: blocks h)). split; [reflexivity|]. cbn [mem blocks].
    split; [|split; [reflexivity|]].
    + constructor; cbn [mem blocks]; [|constructor; assumption|].
      * constructor.
        { constructor; cbn [fst snd base count ptr]; try assumption; try reflexivity.
          - rewrite Nat. exact Ep.
          - intros _. unfold m'. apply load_store. rewrite <- pow_bytes.
            pose proof (extra_fits A SA). lia. }
        { apply (links_mem (mem h)); [exact F|]. intros x b' len' Ix Ib L a La _. apply Out.
          pose proof (N4 b' len' Ib) as Ap. unfold apart in Ap. lia. }
      * intro a. unfold m'. apply store_bytes. exact B.
    + intros x a Ix Ia. apply Out.
      apply In_nth_error in Ix. destruct Ix as (i & Ix).
      destruct (Forall2_nth _ _ _ _ _ F i x Ix) as ((b' & len') & N & L).
      destruct (link_layout _ _ _ _ L). pose proof (N4 b' len' (nth_error_In _ _ N)) as Ap.
      unfold apart in Ap. unfold inside in Ia. lia.
Qed.

Lemma write_ok : forall h arrays a v, inv h arrays -> 0 <= v < 256 ->
  (exists x, In x arrays /\ inside size x a) ->
  inv (MkHeap (fun y => if y =? a then v else mem h y) (blocks h)) arrays.
Proof using SA SZ.
  intros h arrays a v [F P B] V (x & Ix & Ia). constructor; cbn [mem blocks]; [|exact P|].
  - apply In_nth_error in Ix. destruct Ix as (i & Ix).
    destruct (Forall2_nth _ _ _ _ _ F i x Ix) as ((b & len) & N & L).
    pose proof (link_layout _ _ _ _ L) as Y.
    assert (G : forall j y b' len', nth_error arrays j = Some y -> nth_error (blocks h) j = Some (b', len') ->
      link (mem h) y (b', len') ->
      forall c, b' <= c < b' + len' -> ~ inside size y c -> (if c =? a then v else mem h c) = mem h c).
    { intros j y b' len' Hj Hb Ly c Lc NI. destruct (Z.eqb_spec c a) as [E|E]; [|reflexivity]. exfalso. subst c.
      destruct (Nat.eq_dec i j) as [D|D].
      - subst j. rewrite Ix in Hj. injection Hj as Hj. subst y. contradiction.
      - pose proof (pairwise_nth _ P i j _ _ _ _ N Hb D) as Ap. unfold apart, inside in *. destruct Y. lia. }
    clear - F G SA SZ. revert G. induction F as [|y [b' len'] l l' H F IH]; intro G; constructor.
    + apply (link_mem (mem h)); [exact H|]. apply (G 0%nat y b' len'); [reflexivity|reflexivity|exact H].
    + apply IH. intros j z b'' len'' Hj Hb Lz. apply (G (S j) z b'' len''); assumption.
  - intro c. destruct (c =? a); [exact V|apply B].
Qed.

Lemma deallocate_ok : forall h arrays p, inv h arrays -> (exists x, In x arrays /\ ptr x = p) ->
  exists h', deallocate A p h = Some h' /\ inv h' (drop_ptr p arrays) /\ mem h' = mem h.
Proof using SA SZ.
  intros h arrays p [F P B] (x & Ix & Ep). unfold deallocate.
  assert (G : forall bs, Forall2 (link (mem h)) arrays bs -> pairwise bs ->
    exists bs', release (if natural A then p
       else wrap (p - load (Z.to_nat (offset_size A)) (offset_ptr A p) (mem h))) bs = Some bs' /\
      Forall2 (link (mem h)) (drop_ptr p arrays) bs' /\ pairwise bs' /\
      (forall y, In y bs' -> In y bs)).
  { clear F P. revert Ix. induction arrays as [|y l IH]; intros Ix bs F P; [destruct Ix|].
    inversion F as [|? [b len] ? l' Ly F']; subst. inversion P as [|? ? ? P' H']; subst.
    cbn [drop_ptr release]. destruct (Z.eqb_spec (ptr y) (ptr x)) as [E|E].
    - assert (Eb : (if natural A then ptr x
        else wrap (ptr x - load (Z.to_nat (offset_size A)) (offset_ptr A (ptr x)) (mem h))) = b).
      { pose proof (l_ptr _ _ _ Ly) as L1. pose proof (l_record _ _ _ Ly) as L2. pose proof (l_fits _ _ _ Ly).
        pose proof (l_pos _ _ _ Ly). pose proof (len_pos _ _ _ _ Ly). cbn [fst snd] in *.
        destruct (natural A); [congruence|]. rewrite <- E, (L2 eq_refl).
        replace (ptr y - (ptr y - b)) with b by lia. apply wrap_small. lia. }
      rewrite Eb, Z.eqb_refl. exists l'. repeat split; try assumption. intros z Iz. right. exact Iz.
    - destruct Ix as [Ix|Ix]; [congruence|].
      destruct (IH Ix l' F' P') as (bs' & Er & Fr & Pr & Sub).
      assert (Eb : (b =? (if natural A then ptr x
        else wrap (ptr x - load (Z.to_nat (offset_size A)) (offset_ptr A (ptr x)) (mem h)))) = false).
      { apply Z.eqb_neq. intro Q. apply In_nth_error in Ix. destruct Ix as (i & Ix).
        destruct (Forall2_nth _ _ _ _ _ F' i x Ix) as ((b' & len') & N & L).
        pose proof (H' b' len' (nth_error_In _ _ N)) as Ap.
        pose proof (l_ptr _ _ _ L) as L1. pose proof (l_record _ _ _ L) as L2. pose proof (l_fits _ _ _ L).
        pose proof (l_pos _ _ _ L). pose proof (len_pos _ _ _ _ L). pose proof (len_pos _ _ _ _ Ly). cbn [fst snd] in *.
        assert (Q' : b = b').
        { destruct (natural A); [congruence|]. rewrite Q, (L2 eq_refl).
          replace (ptr x - (ptr x - b')) with b' by lia. apply wrap_small. lia. }
        unfold apart in Ap. lia. }
      rewrite Eb, Er. cbn [option_map]. exists ((b, len) :: bs'). split; [reflexivity|].
      split; [constructor; assumption|]. split.
      + constructor; [exact Pr|]. intros b' len' I. apply H'. apply Sub. exact I.
      + intros z [Iz|Iz]; [left; exact Iz|right; apply Sub; exact Iz]. }
  destruct (G (blocks h) F P) as (bs' & Er & Fr & Pr & _). rewrite Er. cbn [option_map].
  exists (MkHeap (mem h) bs'). split; [reflexivity|]. split; [|reflexivity]. constructor; assumption.
Qed.

Lemma history_inv : forall h arrays, history A size h arrays -> inv h arrays.
Proof using SA SZ.
  intros h arrays H. induction H as [m B|h arrays e r h' H IH M E].
  - constructor; cbn [mem blocks]; [constructor|constructor|exact B].
  - destruct e as [n b|a v|p]; cbn [may exec] in *.
    + destruct M as (M1 & M2 & M3). destruct (allocate_ok h arrays n b IH M1 M2 M3) as (p & h'' & Ea & I & _).
      rewrite Ea in E. cbn [option_map fst snd] in E. injection E as E1 E2. subst. exact I.
    + injection E as E1 E2. subst. cbn [view]. destruct M as [M1 M2]. apply write_ok; assumption.
    + destruct (deallocate_ok h arrays p IH M) as (h'' & Ed & I & _). rewrite Ed in E. cbn [option_map] in E.
      injection E as E1 E2. subst. exact I.
Qed.

Lemma history_step : forall h arrays e, history A size h arrays -> may A size h arrays e ->
  exists r h', exec A size h e = Some (r, h').
Proof using SA SZ.
  intros h arrays e H M. pose proof (history_inv _ _ H) as I. destruct e as [n b|a v|p]; cbn [may exec] in *.
  - destruct M as (M1 & M2 & M3). destruct (allocate_ok h arrays n b I M1 M2 M3) as (p & h' & Ea & _).
    rewrite Ea. eexists. eexists. reflexivity.
  - eexists. eexists. reflexivity.
  - destruct (deallocate_ok h arrays p I M) as (h' & Ed & _). rewrite Ed. eexists. eexists. reflexivity.
Qed.

End Inv.
