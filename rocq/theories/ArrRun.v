(* Programs over arrays compute what their meaning says. *)
From Coq Require Import List Bool NArith ZArith Lia Arith.
From Verif Require Import NdModel NdSpec NdProofs NdAccess ArrModel ArrSpec ArrProofs.
Import ListNotations.
Local Open Scope N_scope.
Set Default Proof Using "Type".

(* the memory holds the tables *)
Definition holds {V} (sz : N) (arrs : list arr) (t : tables V) (m : mem V) : Prop :=
  forall a is, (a < length arrs)%nat -> in_range (shape (the arrs a)) is ->
    m (cell sz (the arrs a) (row_major (shape (the arrs a)) is)) = t a is.
(* an address that is no element of any array *)
Definition elsewhere (sz : N) (arrs : list arr) (x : N) : Prop :=
  forall a k, (a < length arrs)%nat -> k < volume (shape (the arrs a)) -> x <> cell sz (the arrs a) k.
Definition shapes (arrs : list arr) : list (list N) := map shape arrs.

Lemma shape_of_the arrs a : shape_of (shapes arrs) a = shape (the arrs a).
Proof. unfold shape_of, shapes, the. change (@nil N) with (shape (Arr 0 [])). now rewrite map_nth. Qed.
Lemma shapes_length arrs : length (shapes arrs) = length arrs.
Proof. apply map_length. Qed.
Lemma the_placed sz arrs a : laid_out sz arrs -> (a < length arrs)%nat -> placed sz (the arrs a).
Proof. intros (_ & P & _) H. rewrite Forall_forall in P. apply P. now apply nth_In. Qed.

Lemma cell_inj sz arrs a b k l : laid_out sz arrs -> (a < length arrs)%nat -> (b < length arrs)%nat ->
  k < volume (shape (the arrs a)) -> l < volume (shape (the arrs b)) ->
  cell sz (the arrs a) k = cell sz (the arrs b) l -> a = b /\ k = l.
Proof.
  intros (Hz & _ & D) Ha Hb K L E. unfold cell in *.
  destruct (Nat.lt_trichotomy a b) as [H|[->|H]].
  - destruct (D a b) as [X|X]; [lia| |]; exfalso; nia.
  - split; [reflexivity|nia].
  - destruct (D b a) as [X|X]; [lia| |]; exfalso; nia.
Qed.

Lemma put_holds {V} sz arrs t (m : mem V) a is v : laid_out sz arrs -> (a < length arrs)%nat ->
  in_range (shape (the arrs a)) is -> holds sz arrs t m ->
  holds sz arrs (set t a is v) (put m (cell sz (the arrs a) (row_major (shape (the arrs a)) is)) v).
Proof.
  intros L Ha R H b js Hb Rb. unfold put, set.
  pose proof (row_major_lt _ _ R). pose proof (row_major_lt _ _ Rb).
  destruct (N.eqb_spec (cell sz (the arrs b) (row_major (shape (the arrs b)) js))
              (cell sz (the arrs a) (row_major (shape (the arrs a)) is))) as [E|E].
  - apply (cell_inj sz arrs) in E as [-> E]; try assumption. apply row_major_inj in E; try assumption. subst js.
    rewrite Nat.eqb_refl, (proj2 (same_index_spec is is) eq_refl). reflexivity.
  - destruct ((b =? a)%nat && same_index js is) eqn:X; [|now apply H].
    apply andb_true_iff in X as [X1 X2]. apply Nat.eqb_eq in X1. apply same_index_spec in X2. subst. congruence.
Qed.

Lemma put_plain_holds {V} sz arrs t (m : mem V) a k v : laid_out sz arrs -> (a < length arrs)%nat ->
  k < volume (shape (the arrs a)) -> holds sz arrs t m ->
  holds sz arrs (set_nth (shape (the arrs a)) t a k v) (put m (cell sz (the arrs a) k) v).
Proof.
  intros L Ha K H b js Hb Rb. unfold put, set_nth. pose proof (row_major_lt _ _ Rb).
  destruct (N.eqb_spec (cell sz (the arrs b) (row_major (shape (the arrs b)) js)) (cell sz (the arrs a) k)) as [E|E].
  - apply (cell_inj sz arrs) in E as [-> E]; try assumption. now rewrite Nat.eqb_refl, E, N.eqb_refl.
  - destruct (Nat.eqb_spec b a) as [->|]; cbn [andb]; [|now apply H].
    destruct (N.eqb_spec (row_major (shape (the arrs a)) js) k) as [<-|]; [congruence|now apply H].
Qed.

Lemma put_frame {V} sz arrs (m : mem V) a k v x : elsewhere sz arrs x -> (a < length arrs)%nat ->
  k < volume (shape (the arrs a)) -> put m (cell sz (the arrs a) k) v x = m x.
Proof. intros O Ha K. unfold put. destruct (N.eqb_spec x (cell sz (the arrs a) k)) as [->|]; [|reflexivity]. exfalso. now apply (O a k). Qed.

(* the cells of an array as a block *)
Lemma block_cells sz A x : in_block sz (base A) (N.to_nat (volume (shape A))) x <->
  exists k, k < volume (shape A) /\ x = cell sz A k.
Proof.
  unfold in_block, cell. split.
  - intros (k & Hk & ->). exists (N.of_nat k). split; [lia|reflexivity].
  - intros (k & Hk & ->). exists (N.to_nat k). split; [lia|]. now rewrite N2Nat.id.
Qed.
Lemma block_end sz A : cell sz A (volume (shape A)) = base A + N.of_nat (N.to_nat (volume (shape A))) * sz.
Proof. unfold cell. now rewrite N2Nat.id. Qed.

Lemma blocks_aligned sz arrs a b : laid_out sz arrs -> (a < length arrs)%nat -> (b < length arrs)%nat ->
  shape (the arrs a) = shape (the arrs b) ->
  aligned_blocks sz (base (the arrs a)) (base (the arrs b)) (N.to_nat (volume (shape (the arrs a)))).
Proof.
  intros (Hz & _ & D) Ha Hb S. unfold aligned_blocks. rewrite !N2Nat.id. unfold cell in D.
  destruct (Nat.lt_trichotomy a b) as [H|[->|H]].
  - destruct (D a b) as [X|X]; [lia| |]; rewrite <- ?S in *; lia.
  - now left.
  - destruct (D b a) as [X|X]; [lia| |]; rewrite <- ?S in *; lia.
Qed.

Section Run.
Context {V : Type}.
Variables (sz : N) (arrs : list arr).
Hypothesis L : laid_out sz arrs.

Local Notation vol a := (volume (shape (the arrs a))).

Lemma fill_holds t (m : mem V) a v : (a < length arrs)%nat -> holds sz arrs t m ->
  exists m', fill sz (the arrs a) v m = Some m' /\ holds sz arrs (set_all t a v) m' /\
    (forall x, elsewhere sz arrs x -> m' x = m x).
Proof using L.
  intros Ha H. pose proof (the_placed _ _ _ L Ha) as P. destruct L as (Hz & _).
  unfold fill. rewrite (placed_end sz _ Hz P), (placed_total sz _ Hz P), block_end.
  destruct (fill_loop_spec sz v Hz (N.to_nat (vol a)) (S (N.to_nat (vol a))) m (base (the arrs a))) as (m' & E & H1 & H2);
    [lia|rewrite N2Nat.id; apply P|].
  exists m'. split; [exact E|]. split.
  - intros b is Hb R. unfold set_all. pose proof (row_major_lt _ _ R) as X.
    destruct (Nat.eqb_spec b a) as [->|Nb].
    + unfold cell. rewrite <- (N2Nat.id (row_major _ is)). apply H1. lia.
    + rewrite H2; [now apply H|]. rewrite block_cells. intros (k & Hk & Ek).
      apply (cell_inj sz arrs) in Ek as [-> _]; auto.
  - intros x O. apply H2. rewrite block_cells. intros (k & Hk & Ek). now apply (O a k).
Qed.

Lemma swap_holds t (m : mem V) a b : (a < length arrs)%nat -> (b < length arrs)%nat ->
  shape (the arrs a) = shape (the arrs b) -> holds sz arrs t m ->
  exists m', swap sz (the arrs a) (the arrs b) m = Some m' /\ holds sz arrs (exchange t a b) m' /\
    (forall x, elsewhere sz arrs x -> m' x = m x).
Proof using L.
  intros Ha Hb S H. pose proof (the_placed _ _ _ L Ha) as P. pose proof (the_placed _ _ _ L Hb) as Q.
  assert (Hz : 0 < sz) by apply L.
  unfold swap. rewrite (placed_end sz _ Hz P), (placed_total sz _ Hz P), block_end.
  destruct (swap_loop_spec sz Hz (N.to_nat (vol a)) (Datatypes.S (N.to_nat (vol a))) m (base (the arrs a)) (base (the arrs b)))
    as (m' & E & H1 & H2); [lia|rewrite N2Nat.id; apply P|rewrite N2Nat.id, S; apply Q|now apply blocks_aligned|].
  exists m'. split; [exact E|]. split.
  - intros c is Hc R. unfold exchange. pose proof (row_major_lt _ _ R) as X.
    destruct (Nat.eqb_spec c a) as [->|Na]; [|destruct (Nat.eqb_spec c b) as [->|Nb]].
    + unfold cell. rewrite <- (N2Nat.id (row_major _ is)). destruct (H1 (N.to_nat (row_major (shape (the arrs a)) is))) as [-> _]; [lia|].
      rewrite N2Nat.id, S. apply H; [exact Hb|]. now rewrite <- S.
    + unfold cell. rewrite <- (N2Nat.id (row_major _ is)). destruct (H1 (N.to_nat (row_major (shape (the arrs b)) is))) as [_ ->]; [rewrite S; lia|].
      rewrite N2Nat.id, <- S. apply H; [exact Ha|]. now rewrite S.
    + rewrite H2; [now apply H| |].
      * rewrite block_cells. intros (k & Hk & Ek). apply (cell_inj sz arrs) in Ek as [-> _]; auto.
      * rewrite S, block_cells. intros (k & Hk & Ek). apply (cell_inj sz arrs) in Ek as [-> _]; auto.
  - intros x O. apply H2.
    + rewrite block_cells. intros (k & Hk & Ek). now apply (O a k).
    + rewrite S, block_cells. intros (k & Hk & Ek). now apply (O b k).
Qed.

Lemma assign_holds t (m : mem V) a b : (a < length arrs)%nat -> (b < length arrs)%nat ->
  shape (the arrs a) = shape (the arrs b) -> holds sz arrs t m ->
  holds sz arrs (copy t a b) (assign sz (the arrs a) (the arrs b) m) /\
    (forall x, elsewhere sz arrs x -> assign sz (the arrs a) (the arrs b) m x = m x).
Proof using L.
  intros Ha Hb S H. pose proof (the_placed _ _ _ L Ha) as P. pose proof (the_placed _ _ _ L Hb) as Q.
  assert (Hz : 0 < sz) by apply L.
  unfold assign. rewrite (placed_total sz _ Hz P).
  destruct (assign_loop_spec sz Hz (N.to_nat (vol a)) m (base (the arrs a)) (base (the arrs b)))
    as (H1 & H2); [rewrite N2Nat.id; apply P|rewrite N2Nat.id, S; apply Q|now apply blocks_aligned|].
  split.
  - intros c is Hc R. unfold copy. pose proof (row_major_lt _ _ R) as X.
    destruct (Nat.eqb_spec c a) as [->|Na].
    + unfold cell. rewrite <- (N2Nat.id (row_major _ is)). rewrite H1 by lia.
      rewrite N2Nat.id, S. apply H; [exact Hb|]. now rewrite <- S.
    + rewrite H2; [now apply H|]. rewrite block_cells. intros (k & Hk & Ek). apply (cell_inj sz arrs) in Ek as [-> _]; auto.
  - intros x O. apply H2. rewrite block_cells. intros (k & Hk & Ek). now apply (O a k).
Qed.

Lemma locate_holds t (m : mem V) p a is : names_element (shapes arrs) p a is -> holds sz arrs t m ->
  locate sz p (the arrs a) is =
    if insideb (shape_of (shapes arrs) a) is then Some (cell sz (the arrs a) (row_major (shape (the arrs a)) is)) else None.
Proof using L.
  intros (Ha & Le & R) H. rewrite shapes_length in Ha. rewrite !shape_of_the in *.
  apply locate_spec; [apply L|now apply the_placed|exact Le|exact R].
Qed.

Lemma fetch_holds t (m : mem V) s : names_source (shapes arrs) s -> holds sz arrs t m ->
  fetch sz arrs m s = value_of (shapes arrs) t s.
Proof using L.
  destruct s as [v|p a is]; intros Ns H; [reflexivity|]. cbn [fetch value_of names_source] in *.
  rewrite (locate_holds t m) by assumption. destruct (insideb (shape_of (shapes arrs) a) is) eqn:I; [|reflexivity].
  cbn. f_equal. apply insideb_spec in I. rewrite shape_of_the in I. destruct Ns as (Ha & _). rewrite shapes_length in Ha.
  now apply H.
Qed.

Lemma exec_holds t (m : mem V) o : legal (shapes arrs) o -> holds sz arrs t m ->
  match meaning (shapes arrs) o t with
  | Some t' => exists m', exec sz arrs o m = Done m' /\ holds sz arrs t' m' /\ (forall x, elsewhere sz arrs x -> m' x = m x)
  | None => exec sz arrs o m = Thrown
  end.
Proof using L.
  intros Lo H. destruct o as [p a is s|a k s|a v|a b|a b]; cbn [legal meaning exec] in *.
  - destruct Lo as (Ne & Ns). rewrite (locate_holds t m) by assumption. rewrite (fetch_holds t m) by assumption.
    destruct Ne as (Ha & Le & R). rewrite shapes_length in Ha.
    destruct (insideb (shape_of (shapes arrs) a) is) eqn:I; destruct (value_of (shapes arrs) t s) as [v|]; cbn; try reflexivity.
    apply insideb_spec in I. rewrite shape_of_the in I. eexists. split; [reflexivity|]. split; [now apply put_holds|].
    intros x O. apply (put_frame sz arrs); [exact O|exact Ha|now apply row_major_lt].
  - destruct Lo as (Ha & K & Ns). rewrite shapes_length in Ha. rewrite shape_of_the in *. rewrite (fetch_holds t m) by assumption.
    destruct (value_of (shapes arrs) t s) as [v|]; cbn; [|reflexivity].
    rewrite plain_spec by (apply L || (now apply the_placed) || exact K).
    eexists. split; [reflexivity|]. split; [now apply put_plain_holds|].
    intros x O. now apply (put_frame sz arrs).
  - rewrite shapes_length in Lo. destruct (fill_holds t m a v Lo H) as (m' & -> & ? & ?). cbn. eauto.
  - rewrite shapes_length, !shape_of_the in Lo. destruct Lo as (Ha & Hb & S).
    destruct (swap_holds t m a b Ha Hb S H) as (m' & -> & ? & ?). cbn. eauto.
  - rewrite shapes_length, !shape_of_the in Lo. destruct Lo as (Ha & Hb & S).
    destruct (assign_holds t m a b Ha Hb S H) as (? & ?). eauto.
Qed.

Lemma run_holds os : forall t (m : mem V), Forall (legal (shapes arrs)) os -> holds sz arrs t m ->
  exists m', run sz arrs os m = Some (fst (meanings (shapes arrs) os t), m') /\
    holds sz arrs (snd (meanings (shapes arrs) os t)) m' /\ (forall x, elsewhere sz arrs x -> m' x = m x).
Proof using L.
  induction os as [|o os IH]; intros t m F H; cbn [run meanings].
  - exists m. repeat split. exact H.
  - inversion F as [|? ? Fo F']; subst. pose proof (exec_holds t m o Fo H) as X.
    destruct (meaning (shapes arrs) o t) as [t'|].
    + destruct X as (m1 & -> & H1 & O1). destruct (IH t' m1 F' H1) as (m2 & -> & H2 & O2).
      exists m2. cbn. repeat split; [exact H2|]. intros x O. now rewrite O2, O1.
    + rewrite X. destruct (IH t m F' H) as (m2 & -> & H2 & O2). exists m2. cbn. repeat split; assumption.
Qed.

End Run.
